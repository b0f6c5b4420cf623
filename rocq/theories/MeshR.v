(** The mesh loop (proofs). *)
From Coq Require Import Reals Lia Lra Bool Arith.
From Coquelicot Require Import Coquelicot.
From Coq Require Import List.
From Verif Require Import Num PyList Mat Poly Roots Colloc Ocp Transcribe Spec SpecOcp NumR ListR CompR.
Import ListNotations.
Open Scope R_scope.

Lemma nth_error_lt {A} (l : list A) k a : nth_error l k = Some a -> (k < length l)%nat.
Proof. intros H. apply nth_error_Some. congruence. Qed.

Lemma offset_strict orders a b : (forall p, In p orders -> (1 <= p)%nat) -> (a < b)%nat -> (b <= length orders)%nat ->
  (offset orders a < offset orders b)%nat.
Proof.
  intros Hp Hab Hb.
  assert (Ha : (a < length orders)%nat) by lia.
  pose proof (offset_S_nth orders a Ha). pose proof (offset_mono orders (S a) b ltac:(lia)).
  assert (1 <= nth a orders 0)%nat by (apply Hp, nth_In; auto). lia.
Qed.
Lemma owned_unique orders i k j k' j' : (forall p, In p orders -> (1 <= p)%nat) ->
  owned orders i k j -> owned orders i k' j' -> k = k' /\ j = j'.
Proof.
  intros Hp (p & Hk & Hj & Hkj & E) (p' & Hk' & Hj' & Hkj' & E').
  pose proof (offset_S _ _ _ Hk). pose proof (offset_S _ _ _ Hk').
  pose proof (nth_error_lt _ _ _ Hk). pose proof (nth_error_lt _ _ _ Hk').
  destruct (lt_eq_lt_dec k k') as [[Hlt|Heq]|Hgt].
  - pose proof (offset_mono orders (S k) k' ltac:(lia)). lia.
  - subst. split; [reflexivity|lia].
  - pose proof (offset_mono orders (S k') k ltac:(lia)). lia.
Qed.
Lemma owned_lt orders i k j : owned orders i k j -> (i < total_nodes orders)%nat.
Proof.
  intros (p & Hk & Hj & _ & ->). unfold total_nodes.
  pose proof (offset_S _ _ _ Hk). pose proof (nth_error_lt _ _ _ Hk).
  pose proof (offset_mono orders (S k) (length orders) ltac:(lia)). lia.
Qed.
Lemma owned_exists orders i : orders <> [] -> (i < total_nodes orders)%nat -> exists k j, owned orders i k j.
Proof.
  intros Hne Hi. destruct (owner_exists orders i Hne Hi) as (k & j & Hk & Hj & Hkj & E).
  exists k, j, (nth k orders 0%nat). split; [apply nth_error_nth'; auto|auto].
Qed.

Section Mesh.
Variable mp : mpo Rnum.
Hypothesis Hmp : mpo_ok mp.
Variables (rs : list (list R)) (sw : list R) (w : nat -> R) (y : utraj).
Let t0 := y_t0 y.
Let tf := y_tf y.
Let orders := mp_orders mp.
Let cf := mp_cf mp.
Hypothesis Hrs : length rs = length orders.
Hypothesis Hgood : forall k p r, nth_error orders k = Some p -> nth_error rs k = Some r ->
  good_nodes (cf_tau0 cf) (cf_tau1 cf) p r.
Hypothesis Hw : forall k, (k < length orders)%nat -> at_ sw k = Ok (w k).
Let dt := (tf - t0) / (cf_tau1 cf - cf_tau0 cf).

Lemma good_at k p : nth_error orders k = Some p -> good_nodes (cf_tau0 cf) (cf_tau1 cf) p (nth k rs []).
Proof.
  intros Hk. pose proof (nth_error_lt _ _ _ Hk).
  destruct (nth_error rs k) as [r|] eqn:Er; [|apply nth_error_None in Er; lia].
  rewrite (nth_error_nth rs k [] Er). eapply Hgood; eauto.
Qed.
Lemma tau_pos : cf_tau0 cf < cf_tau1 cf.
Proof. apply (co_taus _ (mo_cfg _ Hmp)). Qed.

Lemma start_S k : seg_start w y (S k) = seg_start w y k + seg_h cf w y k * (cf_tau1 cf - cf_tau0 cf).
Proof.
  pose proof tau_pos. unfold seg_start, seg_h. cbn [Rsum]. field. lra.
Qed.
Lemma h_eq k : dt * w k = seg_h cf w y k.
Proof. pose proof tau_pos. unfold dt, seg_h, t0, tf. field. lra. Qed.

Definition the_node (k j : nat) : node Rnum :=
  Node (N := Rnum) k j (seg_time cf w y k (nth j (nth k rs []) 0)) (seg_h cf w y k).

Lemma at_taus k p j : nth_error orders k = Some p -> (j <= p)%nat ->
  exists ts, at_ rs k = Ok ts /\ at_ ts j = Ok (nth j (nth k rs []) 0).
Proof.
  intros Hk Hj. pose proof (nth_error_lt _ _ _ Hk). exists (nth k rs []).
  split; [apply at_ok; lia|]. apply at_ok. destruct (good_at k p Hk) as (Hl & _). lia.
Qed.

Lemma mesh_loop_ok : forall fuel k j p, nth_error orders k = Some p -> (j <= p + 1)%nat ->
  (k = 0 \/ 1 <= j)%nat ->
  (offset orders k + j + fuel = total_nodes orders)%nat ->
  exists nodes, mesh_loop (N := Rnum) mp rs sw dt fuel k j (seg_start w y k) (seg_h cf w y k) = Ok nodes /\
    length nodes = fuel /\
    forall i k' j', owned orders i k' j' -> (offset orders k + j <= i)%nat ->
      nth_error nodes (i - (offset orders k + j)) = Some (the_node k' j').
Proof.
  assert (Hpos := mo_pos _ Hmp). fold orders in Hpos.
  induction fuel as [|fuel IH]; intros k j p Hk Hj Hkj Hn.
  - exists []. split; [reflexivity|]. split; [reflexivity|].
    intros i k' j' Ho Hi. apply owned_lt in Ho. lia.
  - assert (Hstep : forall k j p, nth_error orders k = Some p -> (j <= p)%nat -> (k = 0 \/ 1 <= j)%nat ->
      (offset orders k + j + S fuel = total_nodes orders)%nat ->
      exists nodes,
        bind (at_ rs k) (fun ts => bind (at_ ts j) (fun tau =>
          bind (mesh_loop (N := Rnum) mp rs sw dt fuel k (j + 1) (seg_start w y k) (seg_h cf w y k))
            (fun rest => Ok (Node (N := Rnum) k j (seg_start w y k + seg_h cf w y k * (tau - cf_tau0 cf)) (seg_h cf w y k) :: rest)))) = Ok nodes /\
        length nodes = S fuel /\
        forall i k' j', owned orders i k' j' -> (offset orders k + j <= i)%nat ->
          nth_error nodes (i - (offset orders k + j)) = Some (the_node k' j')).
    { clear k j p Hk Hj Hkj Hn. intros k j p Hk Hj Hkj Hn.
      destruct (at_taus k p j Hk Hj) as (ts & E1 & E2). rewrite E1. cbn [bind]. rewrite E2. cbn [bind].
      destruct (IH k (j + 1)%nat p Hk ltac:(lia) ltac:(lia) ltac:(lia)) as (nodes & E & Hl & Hnd).
      rewrite E. cbn [bind]. eexists. split; [reflexivity|]. split; [cbn [length]; lia|].
      intros i k' j' Ho Hi. destruct (Nat.eq_dec i (offset orders k + j)) as [Ei|Ei].
      - rewrite Ei, Nat.sub_diag. cbn [nth_error].
        assert (Hown : owned orders i k j) by (exists p; auto).
        destruct (owned_unique orders i k j k' j' Hpos Hown Ho) as [-> ->]. reflexivity.
      - replace (i - (offset orders k + j))%nat with (S (i - (offset orders k + (j + 1)))) by lia.
        cbn [nth_error]. apply Hnd; auto. lia. }
    cbn [mesh_loop]. fold orders. rewrite (at_ok orders k 0%nat) by (eapply nth_error_lt; eauto).
    cbn [bind]. rewrite (nth_error_nth orders k 0%nat Hk).
    destruct (Nat.ltb_spec p j) as [Hlt|Hle].
    + assert (Ej : j = (p + 1)%nat) by lia. subst j.
      assert (Hk1 : (S k < length orders)%nat).
      { pose proof (nth_error_lt _ _ _ Hk). destruct (Nat.eq_dec (S k) (length orders)) as [E|]; [|lia].
        pose proof (offset_S _ _ _ Hk) as HS. rewrite E in HS. unfold total_nodes in Hn. lia. }
      destruct (nth_error orders (S k)) as [p'|] eqn:Hk'; [|apply nth_error_None in Hk'; lia].
      assert (Hp' : (1 <= p')%nat) by (apply Hpos; eapply nth_error_In; eauto).
      replace (k + 1)%nat with (S k) by lia.
      nred. rewrite (Hw (S k)) by lia. cbn [bind].
      destruct (Hstep (S k) 1%nat p' Hk' ltac:(lia) ltac:(lia)) as (nodes & E & Hl & Hnd).
      { rewrite (offset_S _ _ _ Hk). lia. }
      exists nodes. split; [|split; [exact Hl|]].
      * rewrite <- E. rewrite start_S. rewrite <- (h_eq (S k)). reflexivity.
      * intros i k' j' Ho Hi. rewrite <- (Hnd i k' j' Ho); [|rewrite (offset_S _ _ _ Hk); lia].
        f_equal. rewrite (offset_S _ _ _ Hk). lia.
    + cbn [bind]. destruct (Hstep k j p Hk ltac:(lia) Hkj Hn) as (nodes & E & Hl & Hnd).
      exists nodes. split; [exact E|]. split; [exact Hl|exact Hnd].
Qed.

Lemma npoints_total : npoints mp = total_nodes orders.
Proof. unfold npoints, total_nodes. rewrite nsum_offset. reflexivity. Qed.

Lemma mesh_nodes : exists nodes, mesh (N := Rnum) mp rs sw (y_t0 y) (y_tf y) = Ok nodes /\
  length nodes = total_nodes orders /\
  forall i k j, owned orders i k j -> nth_error nodes i = Some (the_node k j).
Proof.
  destruct orders as [|p0 os] eqn:Eo.
  { exfalso. pose proof (mo_len _ Hmp). pose proof (mo_nseg _ Hmp). fold orders in H. rewrite Eo in H. cbn in H. lia. }
  rewrite <- Eo in *.
  assert (H0 : nth_error orders 0 = Some p0) by (rewrite Eo; reflexivity).
  destruct (mesh_loop_ok (total_nodes orders) 0 0 p0 H0 ltac:(lia) ltac:(lia)) as (nodes & E & Hl & Hn).
  { rewrite offset_0. lia. }
  exists nodes. split; [|split; [exact Hl|]].
  - unfold mesh. nred. rewrite (Hw 0%nat) by (rewrite Eo; cbn; lia). cbn [bind]. rewrite <- E.
    rewrite npoints_total. fold cf. nred. change ((y_tf y - y_t0 y) / (cf_tau1 cf - cf_tau0 cf)) with dt.
    rewrite <- (h_eq 0). f_equal; unfold seg_start; cbn [Rsum]; lra.
  - intros i k j Ho. specialize (Hn i k j Ho). rewrite offset_0 in Hn. rewrite <- Hn by lia. f_equal. lia.
Qed.
End Mesh.
