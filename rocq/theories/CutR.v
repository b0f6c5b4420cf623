(** A phase cut in two linked phases (proofs of C68). *)
From Coq Require Import Reals Lia Lra Psatz Bool Arith String.
From Coquelicot Require Import Coquelicot.
From Coq Require Import List.
From Verif Require Import Num PyList Mat Poly Roots Colloc Ocp Transcribe Spec SpecOcp SpecHadapt SpecExact SpecConvex SpecTrans SpecCut NumR ListR PolyR CollocR CompR CollocThm MeshR BlockR DiscR NlpR OcpR ScaleR NlpThm CostR WeightR ChebR ExactR ConvexR TransR.
Import ListNotations.
Open Scope R_scope.

Lemma offset_right l m k : offset (l ++ m) (length l + k) = (offset l (length l) + offset m k)%nat.
Proof. induction l as [|a l IH]; [reflexivity|]. cbn [app length Nat.add offset]. rewrite IH. lia. Qed.
Lemma nth_error_twice {A} (l : list A) e k : (e < 2)%nat -> (k < length l)%nat -> nth_error (l ++ l) (e * length l + k) = nth_error l k.
Proof.
  intros He Hk. destruct e as [|[|e]]; [| |lia].
  - cbn [Nat.mul Nat.add]. apply nth_error_app1. exact Hk.
  - rewrite nth_error_app2 by lia. f_equal. lia.
Qed.
Lemma nth_twice {A} (l : list A) e k d : (e < 2)%nat -> (k < length l)%nat -> nth (e * length l + k) (l ++ l) d = nth k l d.
Proof.
  intros He Hk. destruct e as [|[|e]]; [| |lia].
  - cbn [Nat.mul Nat.add]. apply app_nth1. exact Hk.
  - rewrite app_nth2 by lia. f_equal. lia.
Qed.
Lemma offset_twice l e k : (e < 2)%nat -> (k <= length l)%nat -> offset (l ++ l) (e * length l + k) = (e * (total_nodes l - 1) + offset l k)%nat.
Proof.
  intros He Hk. unfold total_nodes. destruct e as [|[|e]]; [| |lia].
  - cbn [Nat.mul Nat.add]. apply offset_app. exact Hk.
  - replace (1 * length l + k)%nat with (length l + k)%nat by lia. rewrite offset_right. lia.
Qed.
Lemma total_twice l : total_nodes (l ++ l) = (2 * (total_nodes l - 1) + 1)%nat.
Proof. unfold total_nodes. rewrite app_length, offset_right. lia. Qed.
(** which segment of the joined mesh owns a node *)
Lemma owned_left l i k j : owned l i k j -> owned (l ++ l) i k j.
Proof.
  intros (q & Eq & A & B & ->). pose proof (nth_error_lt _ _ _ Eq) as Hk. exists q. pose proof (nth_error_twice l 0 k ltac:(lia) Hk) as X. cbn [Nat.mul Nat.add] in X. rewrite X.
  split; [exact Eq|]. split; [exact A|]. split; [exact B|]. pose proof (offset_twice l 0 k ltac:(lia) ltac:(lia)) as Y. cbn [Nat.mul Nat.add] in Y. lia.
Qed.
Lemma owned_right l i k j : owned l i k j -> (1 <= j)%nat -> owned (l ++ l) (total_nodes l - 1 + i) (length l + k) j.
Proof.
  intros (q & Eq & A & B & ->) Hj. pose proof (nth_error_lt _ _ _ Eq) as Hk. exists q. pose proof (nth_error_twice l 1 k ltac:(lia) Hk) as X. rewrite Nat.mul_1_l in X. rewrite X.
  split; [exact Eq|]. split; [exact A|]. split; [right; exact Hj|]. pose proof (offset_twice l 1 k ltac:(lia) ltac:(lia)) as Y. rewrite !Nat.mul_1_l in Y. lia.
Qed.
Lemma owned_twice l i k j : owned (l ++ l) i k j -> exists e i' k', (e < 2)%nat /\ (k' < length l)%nat /\ k = (e * length l + k')%nat /\ i = (e * (total_nodes l - 1) + i')%nat /\ owned l i' k' j /\ (e = 0 \/ 1 <= j)%nat.
Proof.
  intros (q & Eq & A & B & ->). pose proof (nth_error_lt _ _ _ Eq) as Hk. rewrite app_length in Hk.
  destruct (Nat.lt_ge_cases k (length l)) as [Hl|Hl].
  - exists 0%nat, (offset l k + j)%nat, k. pose proof (nth_error_twice l 0 k ltac:(lia) Hl) as X. pose proof (offset_twice l 0 k ltac:(lia) ltac:(lia)) as Y. cbn [Nat.mul Nat.add] in X, Y. rewrite X in Eq. rewrite Y.
    repeat (split; [auto; lia|]). split; [exists q; auto|auto].
  - exists 1%nat, (offset l (k - length l) + j)%nat, (k - length l)%nat. pose proof (nth_error_twice l 1 (k - length l) ltac:(lia) ltac:(lia)) as X. pose proof (offset_twice l 1 (k - length l) ltac:(lia) ltac:(lia)) as Y.
    rewrite !Nat.mul_1_l in X, Y. replace (length l + (k - length l))%nat with k in X, Y by lia. rewrite X in Eq. rewrite Y.
    assert (1 <= j)%nat by lia. split; [lia|]. split; [lia|]. split; [lia|]. split; [lia|]. split; [exists q; split; [exact Eq|]; split; [exact A|]; split; [right; lia|reflexivity]|right; lia].
Qed.
Lemma seg_fits l k q j : nth_error l k = Some q -> (j <= q)%nat -> (offset l k + j < total_nodes l)%nat.
Proof.
  intros Eq Hj. pose proof (nth_error_lt _ _ _ Eq) as Hk. pose proof (offset_S l k q Eq) as E. pose proof (offset_mono l (S k) (length l) ltac:(lia)) as M. unfold total_nodes. lia.
Qed.
Lemma interp_ext c r f g : (forall j, (j < length r)%nat -> f j = g j) -> interpolates c r f -> interpolates c r g.
Proof. intros E [L H]. split; [exact L|]. intros j Hj. rewrite <- E by exact Hj. apply H. exact Hj. Qed.

Lemma some_fn {A} (l : list A) n k : length l = n -> (k < n)%nat -> exists f, nth_error l k = Some f.
Proof. intros L Hk. destruct (nth_error l k) as [f|] eqn:E; [eauto|]. apply nth_error_None in E. lia. Qed.

Section Cut.
Variables (o o2 : ocp Rnum) (K : nat) (orders : list nat) (cf : ccfg Rnum) (npath nterm npath2 nterm2 : nat -> option nat) (z p z2 p2 : list R).
Let mp := Mpo o (2 * K) (orders ++ orders) cf.
Let mp2 := Mpo o2 K orders cf.
Hypothesis Hin : input_ok mp npath nterm z p.
Hypothesis Hin2 : input_ok mp2 npath2 nterm2 z2 p2.
Hypothesis Hc : cut_phase o o2.
Hypothesis Hj : joined mp mp2 z p z2 p2.
Hypothesis Hsum : Rsum K (width mp2 p2 0) = 1.
Variable rs : list (list R).
Hypothesis Hrs : mapM (c_roots cf) orders = Ok rs.
Hypothesis Hlen : forall k q, nth_error orders k = Some q -> length (nth k rs []) = S q.
Hypothesis Hfirst : forall k q, nth_error orders k = Some q -> nth 0 (nth k rs []) 0 = cf_tau0 cf.
Hypothesis Hlast : forall k q, nth_error orders k = Some q -> nth q (nth k rs []) 0 = cf_tau1 cf.
Let y := user_traj mp z 0.
Let ye e := user_traj mp2 z2 e.
Let w := width mp p 0.
Let we e := width mp2 p2 e.
Let N := (total_nodes orders - 1)%nat.

Lemma cut_K : length orders = K.
Proof. exact (mo_len _ (in_mpo _ _ _ _ _ Hin2)). Qed.
Lemma cut_K1 : (1 <= K)%nat.
Proof. exact (mo_nseg _ (in_mpo _ _ _ _ _ Hin2)). Qed.
Lemma cut_rs : mapM (c_roots cf) (orders ++ orders) = Ok (rs ++ rs).
Proof. rewrite mapM_app. unfold bind. rewrite Hrs. reflexivity. Qed.
Lemma cut_lrs : length rs = K.
Proof. destruct (mapM_inv _ _ _ Hrs) as [A _]. exact (eq_trans A cut_K). Qed.
Lemma cut_nth_rs e k : (e < 2)%nat -> (k < K)%nat -> nth (e * K + k) (rs ++ rs) [] = nth k rs [].
Proof. intros He Hk. pose proof (nth_twice rs e k [] He) as X. rewrite cut_lrs in X. exact (X Hk). Qed.
Lemma cut_off e k : (e < 2)%nat -> (k <= K)%nat -> offset (orders ++ orders) (e * K + k) = (e * N + offset orders k)%nat.
Proof. intros He Hk. pose proof (offset_twice orders e k He) as X. rewrite cut_K in X. exact (X Hk). Qed.
(** durations and times *)
Lemma cut_h e k : (e < 2)%nat -> (k < K)%nat -> seg_h cf w y (e * K + k) = seg_h cf (we e) (ye e) k.
Proof. intros He Hk. unfold seg_h. f_equal. exact (jn_w _ _ _ _ _ _ Hj e k He Hk). Qed.
Lemma cut_start e k : (e < 2)%nat -> (k <= K)%nat -> seg_start w y (e * K + k) = seg_start (we e) (ye e) k.
Proof.
  intros He Hk. unfold seg_start.
  assert (L : forall e k, (e < 2)%nat -> (k <= K)%nat -> (y_tf y - y_t0 y) * Rsum k (fun i => w (e * K + i)%nat) = (y_tf (ye e) - y_t0 (ye e)) * Rsum k (we e)).
  { intros e' k' He' Hk'. rewrite <- !Rsum_scal. apply Rsum_ext. intros i Hi. exact (jn_w _ _ _ _ _ _ Hj e' i He' ltac:(cbn; lia)). }
  destruct e as [|[|e]]; [| |lia].
  - cbn [Nat.mul Nat.add]. pose proof (L 0%nat k ltac:(lia) Hk) as X. cbn [Nat.mul Nat.add] in X. change (Rsum k (fun i => w i)) with (Rsum k w) in X. rewrite X. f_equal. exact (jn_t0 _ _ _ _ _ _ Hj).
  - rewrite Nat.mul_1_l, Rsum_app. pose proof (L 0%nat K ltac:(lia) ltac:(lia)) as X. pose proof (L 1%nat k ltac:(lia) Hk) as Y. cbn [Nat.mul Nat.add] in X. rewrite Nat.mul_1_l in Y.
    change (Rsum K (we 0)) with (Rsum K (width mp2 p2 0)) in X. rewrite Hsum in X. rewrite Rmult_plus_distr_l.
    change (Rsum K (fun i => w i)) with (Rsum K w) in X. rewrite X, Y. pose proof (jn_t0 _ _ _ _ _ _ Hj) as E0. pose proof (jn_mid _ _ _ _ _ _ Hj) as E1. fold y (ye 0) in E0. fold (ye 0) (ye 1) in E1. lra.
Qed.
Lemma cut_time e k t : (e < 2)%nat -> (k < K)%nat -> seg_time cf w y (e * K + k) t = seg_time cf (we e) (ye e) k t.
Proof. intros He Hk. unfold seg_time. rewrite cut_start, cut_h by lia. reflexivity. Qed.
(** values at the nodes *)
Lemma cut_x e i s : (e < 2)%nat -> (i < total_nodes orders)%nat -> (s < o_nx o)%nat -> y_x y (e * N + i) s = y_x (ye e) i s.
Proof. exact (jn_x _ _ _ _ _ _ Hj e i s). Qed.
Lemma cut_u e i s : (e < 2)%nat -> (i < total_nodes orders)%nat -> (s < o_nu o)%nat -> y_u y (e * N + i) s = y_u (ye e) i s.
Proof. exact (jn_u _ _ _ _ _ _ Hj e i s). Qed.
Lemma cut_vx e i : (e < 2)%nat -> (i < total_nodes orders)%nat -> vec (o_nx o2) (y_x (ye e) i) = vec (o_nx o) (y_x y (e * N + i)).
Proof. intros He Hi. rewrite (ct_nx _ _ Hc). apply vec_eq. intros s Hs. symmetry. apply cut_x; assumption. Qed.
Lemma cut_vu e i : (e < 2)%nat -> (i < total_nodes orders)%nat -> vec (o_nu o2) (y_u (ye e) i) = vec (o_nu o) (y_u y (e * N + i)).
Proof. intros He Hi. rewrite (ct_nu _ _ Hc). apply vec_eq. intros s Hs. symmetry. apply cut_u; assumption. Qed.
Lemma cut_a e : (e < 2)%nat -> a_of o2 (ye e) = a_of o y.
Proof. intros He. unfold a_of. rewrite (ct_na _ _ Hc). destruct (Nat.eqb (o_na o) 0); [reflexivity|]. f_equal. apply vec_eq. intros s Hs. symmetry. exact (jn_a _ _ _ _ _ _ Hj e s He Hs). Qed.
Lemma cut_dyn e i t : (e < 2)%nat -> (i < total_nodes orders)%nat -> dyn_val o2 e (ye e) i t = dyn_val o 0 y (e * N + i) t.
Proof. intros He Hi. unfold dyn_val. rewrite (ct_dyn _ _ Hc e He), cut_vx, cut_vu, cut_a by assumption. reflexivity. Qed.
Lemma cut_path e i t : (e < 2)%nat -> (i < total_nodes orders)%nat -> path_val o2 e (ye e) i t = path_val o 0 y (e * N + i) t.
Proof. intros He Hi. unfold path_val. rewrite (ct_path _ _ Hc e He), cut_vx, cut_vu, cut_a by assumption. reflexivity. Qed.
Lemma cut_run e i t : (e < 2)%nat -> (i < total_nodes orders)%nat -> run_val o2 e (ye e) i t = run_val o 0 y (e * N + i) t.
Proof. intros He Hi. unfold run_val. rewrite (ct_run _ _ Hc e He), cut_vx, cut_vu, cut_a by assumption. reflexivity. Qed.
Lemma cut_last : (total_nodes (orders ++ orders) - 1 = 1 * N + (total_nodes orders - 1))%nat.
Proof. rewrite total_twice. unfold N. lia. Qed.
Lemma total_pos : (1 <= total_nodes orders)%nat.
Proof. unfold total_nodes. lia. Qed.
Lemma cut_term : term_val o2 1 (ye 1) (total_nodes orders - 1) = term_val o 0 y (total_nodes (orders ++ orders) - 1).
Proof.
  pose proof (ok_shapes _ _ _ (in_ocp _ _ _ _ _ Hin)) as S1. pose proof (ok_shapes _ _ _ (in_ocp _ _ _ _ _ Hin2)) as S2. pose proof (ct_nph _ _ Hc) as N1. pose proof (ct_nph2 _ _ Hc) as N2.
  destruct (some_fn (o_term o) _ 0 (sh_term _ S1)) as (f & E); [cbn; nred; lia|]. destruct (some_fn (o_term o2) _ 1 (sh_term _ S2)) as (f2 & E2); [cbn; nred; lia|].
  unfold term_val. rewrite E, E2, cut_last. rewrite (cut_vx 1), (cut_a 1) by (pose proof total_pos; lia).
  pose proof (jn_tf _ _ _ _ _ _ Hj) as Et. fold y (ye 1) in Et. rewrite <- Et.
  pose proof (ct_term _ _ Hc f f2 (vec (o_nx o) (y_x y (1 * N + (total_nodes orders - 1)))) (y_tf y) (vec (o_nx o) (y_x y 0)) (y_t0 y) (vec (o_nx o2) (y_x (ye 1) 0)) (y_t0 (ye 1)) (a_of o y) E E2) as X. nred. rewrite X. reflexivity.
Qed.
Lemma cut_mayer : mayer_val o2 1 (ye 1) (total_nodes orders - 1) = mayer_val o 0 y (total_nodes (orders ++ orders) - 1).
Proof.
  pose proof (ok_shapes _ _ _ (in_ocp _ _ _ _ _ Hin)) as S1. pose proof (ok_shapes _ _ _ (in_ocp _ _ _ _ _ Hin2)) as S2. pose proof (ct_nph _ _ Hc) as N1. pose proof (ct_nph2 _ _ Hc) as N2.
  destruct (some_fn (o_mayer o) _ 0 (sh_mayer _ S1)) as (f & E); [cbn; nred; lia|]. destruct (some_fn (o_mayer o2) _ 1 (sh_mayer _ S2)) as (f2 & E2); [cbn; nred; lia|].
  unfold mayer_val. rewrite E, E2, cut_last. rewrite (cut_vx 1), (cut_a 1) by (pose proof total_pos; lia).
  pose proof (jn_tf _ _ _ _ _ _ Hj) as Et. fold y (ye 1) in Et. rewrite <- Et.
  pose proof (ct_mayer _ _ Hc f f2 (vec (o_nx o) (y_x y (1 * N + (total_nodes orders - 1)))) (y_tf y) (vec (o_nx o) (y_x y 0)) (y_t0 y) (vec (o_nx o2) (y_x (ye 1) 0)) (y_t0 (ye 1)) (a_of o y) E E2) as X. nred. rewrite X. reflexivity.
Qed.
Lemma cut_first : term_val o2 0 (ye 0) (total_nodes orders - 1) = [] /\ mayer_val o2 0 (ye 0) (total_nodes orders - 1) = 0.
Proof.
  pose proof (ok_shapes _ _ _ (in_ocp _ _ _ _ _ Hin2)) as S2. pose proof (ct_nph2 _ _ Hc) as N2. unfold term_val, mayer_val. split.
  - destruct (nth_error (o_term o2) 0) as [f|] eqn:E; [|reflexivity]. rewrite (ct_term0 _ _ Hc f _ _ _ _ _ E). reflexivity.
  - destruct (nth_error (o_mayer o2) 0) as [f|] eqn:E; [|reflexivity]. pose proof (ct_mayer0 _ _ Hc f (vec (o_nx o2) (y_x (ye 0) (total_nodes orders - 1))) (y_tf (ye 0)) (vec (o_nx o2) (y_x (ye 0) 0)) (y_t0 (ye 0)) (a_of o2 (ye 0)) E) as X. nred. rewrite X. reflexivity.
Qed.
(** interpolating polynomials *)
Lemma cut_interp e k (f f2 : nat -> R) c : (e < 2)%nat -> (k < K)%nat -> (forall i, (i < total_nodes orders)%nat -> f (e * N + i)%nat = f2 i) ->
  seg_interp (orders ++ orders) (e * K + k) (nth (e * K + k) (rs ++ rs) []) f c <-> seg_interp orders k (nth k rs []) f2 c.
Proof.
  intros He Hk Hf. unfold seg_interp. rewrite cut_nth_rs, cut_off by lia. destruct (some_fn orders _ k cut_K Hk) as (q & Eq).
  assert (E : forall j, (j < length (nth k rs []))%nat -> f (e * N + offset orders k + j)%nat = f2 (offset orders k + j)%nat).
  { intros j Hjl. rewrite (Hlen k q Eq) in Hjl. rewrite <- Nat.add_assoc. apply Hf. exact (seg_fits orders k q j Eq ltac:(lia)). }
  split; apply interp_ext; intros j Hjl; [exact (E j Hjl)|symmetry; exact (E j Hjl)].
Qed.
Lemma cut_N : (1 <= N)%nat.
Proof.
  pose proof (in_mpo _ _ _ _ _ Hin2) as Hm. pose proof cut_K as EK. pose proof cut_K1 as K1. destruct (some_fn orders _ 0 EK ltac:(lia)) as (q & Eq).
  pose proof (mo_pos _ Hm q (nth_error_In _ _ Eq)) as Hq. pose proof (seg_fits orders 0 q q Eq ltac:(lia)) as F. unfold N. lia.
Qed.
Lemma node_cases i : (i < total_nodes (orders ++ orders))%nat -> exists e i', (e < 2)%nat /\ (i' < total_nodes orders)%nat /\ i = (e * N + i')%nat /\ (e = 0 \/ 1 <= i')%nat.
Proof.
  rewrite total_twice. fold N. intros Hi. assert (total_nodes orders = N + 1)%nat as E by (unfold N; pose proof total_pos; lia). destruct (Nat.le_gt_cases i N).
  - exists 0%nat, i. lia.
  - exists 1%nat, (i - N)%nat. lia.
Qed.
Lemma node_in e i : (e < 2)%nat -> (i < total_nodes orders)%nat -> (e * N + i < total_nodes (orders ++ orders))%nat.
Proof. intros He Hi. rewrite total_twice. fold N. assert (total_nodes orders = N + 1)%nat as E by (unfold N; pose proof total_pos; lia). destruct e as [|[|e]]; lia. Qed.
Lemma bnd_eq (m m' : list (list (ext R))) a b s : nth a m [] = nth b m' [] -> bnd a m s = bnd b m' s.
Proof. intros E. unfold bnd. rewrite E. reflexivity. Qed.
Lemma cut_bounds : (forall e, (e < 2)%nat -> bounds_ok mp2 e (ye e)) <-> bounds_ok mp 0 y /\ cut_time_ok o2 (y_t0 (ye 1)).
Proof.
  pose proof (jn_t0 _ _ _ _ _ _ Hj) as T0. pose proof (jn_mid _ _ _ _ _ _ Hj) as Tm. pose proof (jn_tf _ _ _ _ _ _ Hj) as Tf. fold y (ye 0) in T0. fold (ye 0) (ye 1) in Tm. fold y (ye 1) in Tf.
  destruct (ct_t0 _ _ Hc) as [Ba Bb]. destruct (ct_tf _ _ Hc) as [Bc Bd].
  split.
  - intros H. pose proof (H 0%nat ltac:(lia)) as (A & B & C & D & E). pose proof (H 1%nat ltac:(lia)) as (A' & B' & C' & D' & E'). cbn [mp_ocp mp_orders mp mp2] in *.
    split; [split; [|split; [|split; [|split]]]|].
    + intros i s Hi Hs. cbn [mp_ocp mp_orders mp] in *. destruct (node_cases i Hi) as (e & i' & He & Hi' & -> & Hc'). rewrite cut_x by assumption.
      destruct (H e He) as (G & _). specialize (G i' s Hi'). cbn [mp_ocp mp2] in G. nred. rewrite (ct_nx _ _ Hc) in G. specialize (G Hs). destruct e as [|[|e]]; [| |lia].
      * cbn [Nat.mul Nat.add]. destruct (Nat.eqb 0 0 && Nat.eqb i' 0); [etransitivity; [exact G|exact (f_equal (fun l => nth s l 0) (ct_start _ _ Hc))]|].
        destruct (ct_x _ _ Hc 0%nat ltac:(lia)) as [X1 X2]. rewrite (bnd_eq _ _ _ _ s X1), (bnd_eq _ _ _ _ s X2) in G. exact G.
      * cbn [Nat.eqb andb] in G. replace (Nat.eqb (1 * N + i') 0) with false by (symmetry; apply Nat.eqb_neq; lia). rewrite andb_false_r.
        destruct (ct_x _ _ Hc 1%nat ltac:(lia)) as [X1 X2]. rewrite (bnd_eq _ _ _ _ s X1), (bnd_eq _ _ _ _ s X2) in G. exact G.
    + intros i s Hi Hs. cbn [mp_ocp mp_orders mp] in *. destruct (node_cases i Hi) as (e & i' & He & Hi' & -> & Hc'). rewrite cut_u by assumption.
      destruct (H e He) as (_ & G & _). specialize (G i' s Hi'). cbn [mp_ocp mp2] in G. nred. rewrite (ct_nu _ _ Hc) in G. specialize (G Hs).
      destruct (ct_u _ _ Hc e He) as [X1 X2]. rewrite (bnd_eq _ _ _ _ s X1), (bnd_eq _ _ _ _ s X2) in G. exact G.
    + rewrite (bnd_eq _ _ _ _ 0 Ba), (bnd_eq _ _ _ _ 0 Bb) in C. rewrite T0. exact C.
    + rewrite (bnd_eq _ _ _ _ 0 Bc), (bnd_eq _ _ _ _ 0 Bd) in D'. rewrite Tf. exact D'.
    + intros i Hi. cbn [mp_ocp mp] in Hi. specialize (E i). nred. rewrite (ct_na _ _ Hc) in E. specialize (E Hi). destruct (ct_a _ _ Hc 0%nat ltac:(lia)) as [X1 X2]. rewrite (bnd_eq _ _ _ _ i X1), (bnd_eq _ _ _ _ i X2) in E.
      pose proof (jn_a _ _ _ _ _ _ Hj 0%nat i ltac:(lia) Hi) as Ea. fold y (ye 0) in Ea. rewrite Ea. exact E.
    + split; [rewrite <- Tm; exact D|exact C'].
  - intros [(A & B & C & D & E) [F G]] e He. cbn [mp_ocp mp_orders mp mp2] in *. split; [|split; [|split; [|split]]].
    + intros i s Hi Hs. cbn [mp_ocp mp_orders mp2] in *. nred. rewrite (ct_nx _ _ Hc) in Hs. specialize (A (e * N + i)%nat s (node_in e i He Hi) Hs). rewrite cut_x in A by assumption.
      destruct (ct_x _ _ Hc e He) as [X1 X2]. rewrite (bnd_eq _ _ _ _ s X1), (bnd_eq _ _ _ _ s X2). destruct e as [|[|e]]; [| |lia].
      * cbn [Nat.mul Nat.add] in A. destruct (Nat.eqb 0 0 && Nat.eqb i 0); [etransitivity; [exact A|exact (f_equal (fun l => nth s l 0) (eq_sym (ct_start _ _ Hc)))]|exact A].
      * cbn [Nat.eqb andb]. pose proof cut_N. replace (Nat.eqb (1 * N + i) 0) with false in A by (symmetry; apply Nat.eqb_neq; lia). rewrite andb_false_r in A. exact A.
    + intros i s Hi Hs. cbn [mp_ocp mp_orders mp2] in *. nred. rewrite (ct_nu _ _ Hc) in Hs. specialize (B (e * N + i)%nat s (node_in e i He Hi) Hs). rewrite cut_u in B by assumption.
      destruct (ct_u _ _ Hc e He) as [X1 X2]. rewrite (bnd_eq _ _ _ _ s X1), (bnd_eq _ _ _ _ s X2). exact B.
    + destruct e as [|[|e]]; [| |lia]; [|exact G]. cbn [mp_ocp mp2]. rewrite (bnd_eq _ _ _ _ 0 Ba), (bnd_eq _ _ _ _ 0 Bb), <- T0. exact C.
    + destruct e as [|[|e]]; [| |lia]; cbn [mp_ocp mp2]; [rewrite Tm; exact F|]. rewrite (bnd_eq _ _ _ _ 0 Bc), (bnd_eq _ _ _ _ 0 Bd), <- Tf. exact D.
    + intros i Hi. cbn [mp_ocp mp2] in *. nred. rewrite (ct_na _ _ Hc) in Hi. destruct (ct_a _ _ Hc e He) as [X1 X2]. rewrite (bnd_eq _ _ _ _ i X1), (bnd_eq _ _ _ _ i X2).
      pose proof (jn_a _ _ _ _ _ _ Hj e i He Hi) as Ea. fold y (ye e) in Ea. rewrite <- Ea. exact (E i Hi).
Qed.
(** state equations *)
Lemma seg_node i k j : owned orders i k j -> (i < total_nodes orders)%nat /\ (k < K)%nat.
Proof. intros (q & Eq & A & B & ->). split; [exact (seg_fits orders k q j Eq A)|]. rewrite <- cut_K. exact (nth_error_lt _ _ _ Eq). Qed.
Lemma right_start : exists q, nth_error orders 0 = Some q /\ length (nth 0 rs []) = S q.
Proof. destruct (some_fn orders _ 0 cut_K cut_K1) as (q & Eq). exists q. split; [exact Eq|exact (Hlen 0%nat q Eq)]. Qed.
Lemma first_owned : owned orders 0 0 0.
Proof. destruct right_start as (q & Eq & _). exists q. split; [exact Eq|]. split; [lia|]. split; [left; reflexivity|]. rewrite offset_0. reflexivity. Qed.
Lemma seg_time_0 (w0 : nat -> R) (y0 : utraj) : seg_time cf w0 y0 0 (nth 0 (nth 0 rs []) 0) = y_t0 y0.
Proof. destruct right_start as (q & Eq & _). unfold seg_time, seg_start. rewrite (Hfirst 0%nat q Eq). cbn [Rsum]. ring. Qed.
Lemma owned_0 i k : owned orders i k 0 -> i = 0%nat /\ k = 0%nat.
Proof. intros (q & Eq & A & [->|B] & ->); [|lia]. rewrite offset_0. auto. Qed.
Lemma interp_0 c (f : nat -> R) : seg_interp orders 0 (nth 0 rs []) f c <-> interpolates c (nth 0 rs []) f.
Proof. unfold seg_interp. rewrite offset_0. split; intros H; exact H. Qed.
Lemma owned_glued e i k j : (e < 2)%nat -> owned orders i k j -> (e = 0 \/ 1 <= j)%nat -> owned (orders ++ orders) (e * N + i) (e * K + k) j.
Proof.
  intros He Ho Hej. destruct e as [|[|e]]; [| |lia].
  - cbn [Nat.mul Nat.add]. apply owned_left. exact Ho.
  - rewrite !Nat.mul_1_l. pose proof (owned_right orders i k j Ho ltac:(lia)) as X. rewrite cut_K in X. exact X.
Qed.
Lemma owned_cases i k j : owned (orders ++ orders) i k j -> exists e i' k', (e < 2)%nat /\ k = (e * K + k')%nat /\ i = (e * N + i')%nat /\ owned orders i' k' j /\ (e = 0 \/ 1 <= j)%nat.
Proof. intros H. destruct (owned_twice orders i k j H) as (e & i' & k' & A & _ & B & C & D & E). rewrite cut_K in B. exists e, i', k'. auto 6. Qed.
Lemma cut_dynamics : (forall e, (e < 2)%nat -> dynamics_ok mp2 rs (we e) e (ye e)) <->
  dynamics_ok mp (rs ++ rs) w 0 y /\
  (forall s c, (s < o_nx o2)%nat -> interpolates c (nth 0 rs []) (fun j => y_x (ye 1) j s) ->
     is_derive (peval c) (nth 0 (nth 0 rs []) 0) (seg_h cf (we 1) (ye 1) 0 * nth s (dyn_val o2 1 (ye 1) 0 (y_t0 (ye 1))) 0)).
Proof.
  split.
  - intros H. split.
    + intros i k j s c Ho Hs Hi. cbn [mp_ocp mp_orders mp_cf mp] in *. destruct (owned_cases i k j Ho) as (e & i' & k' & He & -> & -> & Ho' & _). destruct (seg_node _ _ _ Ho') as [Hi' Hk'].
      rewrite (cut_interp e k' (fun i => y_x y i s) (fun i => y_x (ye e) i s) c He Hk') in Hi by (intros i0 Hi0; apply cut_x; assumption).
      specialize (H e He i' k' j s c Ho'). cbn [mp_ocp mp_orders mp_cf mp2] in H. nred. rewrite (ct_nx _ _ Hc) in H. specialize (H Hs Hi).
      rewrite cut_nth_rs, cut_time, cut_h, <- cut_dyn by assumption. exact H.
    + intros s c Hs Hi. apply interp_0 in Hi. pose proof (H 1%nat ltac:(lia) 0%nat 0%nat 0%nat s c first_owned Hs Hi) as X. cbn [mp_ocp mp_cf mp2] in X. rewrite seg_time_0 in X. exact X.
  - intros [H H1] e He i k j s c Ho Hs Hi. cbn [mp_ocp mp_orders mp_cf mp2] in *. destruct (seg_node _ _ _ Ho) as [Hi' Hk'].
    assert (D : (e = 0 \/ 1 <= j)%nat \/ (e = 1 /\ j = 0)%nat) by lia. destruct D as [D|[-> ->]].
    + nred. rewrite (ct_nx _ _ Hc) in Hs. specialize (H (e * N + i)%nat (e * K + k)%nat j s c (owned_glued e i k j He Ho D) Hs). cbn [mp_ocp mp_orders mp_cf mp] in H.
      rewrite (cut_interp e k (fun i => y_x y i s) (fun i => y_x (ye e) i s) c He Hk') in H by (intros i0 Hi0; apply cut_x; assumption). specialize (H Hi).
      rewrite cut_nth_rs, cut_time, cut_h, <- cut_dyn in H by assumption. exact H.
    + destruct (owned_0 _ _ Ho) as [-> ->]. rewrite seg_time_0. apply H1; [exact Hs|]. apply interp_0. exact Hi.
Qed.
(** path constraints *)
Lemma cut_paths : (forall e, (e < 2)%nat -> path_ok mp2 rs (we e) e (ye e)) <-> path_ok mp (rs ++ rs) w 0 y.
Proof.
  split.
  - intros H i k j c Ho Hc'. cbn [mp_ocp mp_orders mp_cf mp] in *. destruct (owned_cases i k j Ho) as (e & i' & k' & He & -> & -> & Ho' & _). destruct (seg_node _ _ _ Ho') as [Hi' Hk'].
    rewrite cut_nth_rs, cut_time, <- cut_path in Hc' by assumption. exact (H e He i' k' j c Ho' Hc').
  - intros H e He i k j c Ho Hc'. cbn [mp_ocp mp_orders mp_cf mp2] in *. destruct (seg_node _ _ _ Ho) as [Hi' Hk'].
    assert (D : (e = 0 \/ 1 <= j)%nat \/ (e = 1 /\ j = 0)%nat) by lia. destruct D as [D|[-> ->]].
    + apply (H (e * N + i)%nat (e * K + k)%nat j c (owned_glued e i k j He Ho D)). cbn [mp_ocp mp_orders mp_cf mp]. rewrite cut_nth_rs, cut_time, <- cut_path by assumption. exact Hc'.
    + destruct (owned_0 _ _ Ho) as [-> ->]. rewrite seg_time_0, cut_path in Hc' by (try lia; apply total_pos).
      (* the last node of the first phase *)
      pose proof cut_K as EK. pose proof cut_K1 as K1. destruct (some_fn orders _ (K - 1) EK ltac:(lia)) as (q & Eq). pose proof (mo_pos _ (in_mpo _ _ _ _ _ Hin2) q (nth_error_In _ _ Eq)) as Hq.
      assert (EN : (offset orders (K - 1) + q)%nat = N) by (unfold N, total_nodes; rewrite <- (offset_S orders (K - 1) q Eq), EK; replace (S (K - 1)) with K by lia; lia).
      assert (Ho' : owned (orders ++ orders) N (K - 1) q) by (apply owned_left; exists q; split; [exact Eq|]; split; [lia|]; split; [right; exact Hq|]; lia).
      apply (H N (K - 1)%nat q c Ho'). cbn [mp_ocp mp_orders mp_cf mp]. replace (1 * N + 0)%nat with N in Hc' by lia.
      pose proof (cut_nth_rs 0 (K - 1) ltac:(lia) ltac:(lia)) as X. cbn [Nat.mul Nat.add] in X. rewrite X, (Hlast _ _ Eq).
      pose proof (cut_time 0 (K - 1) (cf_tau1 cf) ltac:(lia) ltac:(lia)) as Y. cbn [Nat.mul Nat.add] in Y. rewrite Y.
      replace (seg_time cf (we 0) (ye 0) (K - 1) (cf_tau1 cf)) with (y_t0 (ye 1)); [exact Hc'|].
      pose proof (jn_mid _ _ _ _ _ _ Hj) as Tm. fold (ye 0) (ye 1) in Tm. rewrite <- Tm. unfold seg_time, seg_start, seg_h.
      assert (ES : Rsum (K - 1) (we 0) + we 0%nat (K - 1)%nat = 1) by (transitivity (Rsum (S (K - 1)) (we 0)); [reflexivity|replace (S (K - 1)) with K by lia; exact Hsum]).
      pose proof (co_taus _ (mo_cfg _ (in_mpo _ _ _ _ _ Hin2))) as Ht. cbn [mp_cf mp2] in Ht.
      replace (we 0%nat (K - 1)%nat) with (1 - Rsum (K - 1) (we 0)) by lra. field. lra.
Qed.
(** slopes, mid points, slope continuity, terminal conditions *)
Lemma cut_slopes : (forall e, (e < 2)%nat -> slope_ok mp2 rs e (ye e)) <->
  slope_ok mp (rs ++ rs) 0 y /\
  (nth 1 (o_diff_u o2) false = true -> forall q c, (q < o_nu o2)%nat -> interpolates c (nth 0 rs []) (fun j => y_u (ye 1) j q) ->
     within (nth 1 (o_lbdu o2) NaN) (nth 1 (o_ubdu o2) NaN) (nth q (o_scale_u o2) 0 * Derive (peval c) (nth 0 (nth 0 rs []) 0))).
Proof.
  split.
  - intros H. split.
    + intros Hd i k j q c Ho Hq Hi. cbn [mp_ocp mp_orders mp_cf mp] in *. destruct (owned_cases i k j Ho) as (e & i' & k' & He & -> & -> & Ho' & _). destruct (seg_node _ _ _ Ho') as [Hi' Hk'].
      rewrite (cut_interp e k' (fun i => y_u y i q) (fun i => y_u (ye e) i q) c He Hk') in Hi by (intros i0 Hi0; apply cut_u; assumption).
      specialize (H e He). unfold slope_ok in H. cbn [mp_ocp mp_orders mp_cf mp2] in H. destruct (ct_slope _ _ Hc e He) as (X1 & X2 & X3). nred. rewrite X1, X2, X3, (ct_nu _ _ Hc), (ct_su _ _ Hc) in H.
      rewrite cut_nth_rs by assumption. exact (H Hd i' k' j q c Ho' Hq Hi).
    + intros Hd q c Hq Hi. apply interp_0 in Hi. exact (H 1%nat ltac:(lia) Hd 0%nat 0%nat 0%nat q c first_owned Hq Hi).
  - intros [H H1] e He Hd i k j q c Ho Hq Hi. cbn [mp_ocp mp_orders mp_cf mp2] in *. destruct (seg_node _ _ _ Ho) as [Hi' Hk'].
    assert (D : (e = 0 \/ 1 <= j)%nat \/ (e = 1 /\ j = 0)%nat) by lia. destruct D as [D|[-> ->]].
    + destruct (ct_slope _ _ Hc e He) as (X1 & X2 & X3). nred. rewrite X1 in Hd. rewrite (ct_nu _ _ Hc) in Hq. rewrite X2, X3, (ct_su _ _ Hc).
      specialize (H Hd (e * N + i)%nat (e * K + k)%nat j q c (owned_glued e i k j He Ho D) Hq). cbn [mp_ocp mp_orders mp_cf mp] in H.
      rewrite (cut_interp e k (fun i => y_u y i q) (fun i => y_u (ye e) i q) c He Hk') in H by (intros i0 Hi0; apply cut_u; assumption). specialize (H Hi).
      rewrite cut_nth_rs in H by assumption. exact H.
    + destruct (owned_0 _ _ Ho) as [-> ->]. apply H1; [exact Hd|exact Hq|]. apply interp_0. exact Hi.
Qed.
Lemma cut_mids : (forall e, (e < 2)%nat -> midu_ok mp2 rs e (ye e)) <-> midu_ok mp (rs ++ rs) 0 y.
Proof.
  split.
  - intros H Hm k q j c d Eq Hjq Hc' Hi. cbn [mp_ocp mp_orders mp_cf mp] in *. pose proof (nth_error_lt _ _ _ Eq) as Hk. rewrite app_length, cut_K in Hk.
    assert (D : exists e k', (e < 2)%nat /\ (k' < K)%nat /\ k = (e * K + k')%nat) by (destruct (Nat.lt_ge_cases k K); [exists 0%nat, k; lia|exists 1%nat, (k - K)%nat; lia]). destruct D as (e & k' & He & Hk' & ->).
    rewrite (cut_interp e k' (fun i => y_u y i c) (fun i => y_u (ye e) i c) d He Hk') in Hi by (intros i0 Hi0; apply cut_u; assumption).
    pose proof (nth_error_twice orders e k' He) as X. rewrite cut_K in X. rewrite (X Hk') in Eq.
    specialize (H e He). unfold midu_ok in H. cbn [mp_ocp mp_orders mp_cf mp2] in H. destruct (ct_u _ _ Hc e He) as [X1 X2]. rewrite (bnd_eq _ _ _ _ c X1), (bnd_eq _ _ _ _ c X2) in H || idtac. nred. rewrite (ct_midu _ _ Hc e He), (ct_nu _ _ Hc) in H.
    rewrite !cut_nth_rs by assumption. specialize (H Hm k' q j c d Eq Hjq Hc' Hi). rewrite (bnd_eq _ _ _ _ c X1), (bnd_eq _ _ _ _ c X2) in H. exact H.
  - intros H e He Hm k q j c d Eq Hjq Hc' Hi. cbn [mp_ocp mp_orders mp_cf mp2] in *. nred. rewrite (ct_midu _ _ Hc e He) in Hm. rewrite (ct_nu _ _ Hc) in Hc'. pose proof (nth_error_lt _ _ _ Eq) as Hk. rewrite cut_K in Hk.
    destruct (ct_u _ _ Hc e He) as [X1 X2]. rewrite (bnd_eq _ _ _ _ c X1), (bnd_eq _ _ _ _ c X2).
    pose proof (nth_error_twice orders e k He) as X. rewrite cut_K in X. specialize (X Hk). rewrite Eq in X.
    specialize (H Hm (e * K + k)%nat q j c d X Hjq Hc'). cbn [mp_ocp mp_orders mp_cf mp] in H.
    rewrite (cut_interp e k (fun i => y_u y i c) (fun i => y_u (ye e) i c) d He Hk) in H by (intros i0 Hi0; apply cut_u; assumption). rewrite !cut_nth_rs in H by assumption. exact (H Hi).
Qed.
Lemma cut_conts : (forall e, (e < 2)%nat -> ducont_ok mp2 rs e (ye e)) /\ ducont_ok mp (rs ++ rs) 0 y.
Proof.
  destruct (ct_ducont _ _ Hc) as [A B]. split.
  - intros e He Hd. cbn [mp_ocp mp2] in Hd. rewrite (B e He) in Hd. discriminate Hd.
  - intros Hd. cbn [mp_ocp mp] in Hd. rewrite A in Hd. discriminate Hd.
Qed.
Lemma cut_terms : (forall e, (e < 2)%nat -> terminal_ok mp2 e (ye e)) <-> terminal_ok mp 0 y.
Proof.
  unfold terminal_ok. cbn [mp_ocp mp_orders mp mp2]. destruct cut_first as [E0 _]. split.
  - intros H c Hi. rewrite <- cut_term in Hi. exact (H 1%nat ltac:(lia) c Hi).
  - intros H e He c Hi. destruct e as [|[|e]]; [| |lia].
    + rewrite E0 in Hi. destruct Hi.
    + rewrite cut_term in Hi. exact (H c Hi).
Qed.
Lemma cut_links : links_ok mp2 ye.
Proof.
  intros _ k i j E. cbn [mp_ocp mp2] in E. rewrite (ct_links _ _ Hc) in E. destruct k as [|[|k]]; try discriminate E. injection E as <- <-.
  assert (HN : (N < total_nodes orders)%nat) by (unfold N; pose proof total_pos; lia).
  split; [|split].
  - intros s Hs. cbn [mp_ocp mp_orders mp2] in *. nred. rewrite (ct_nx _ _ Hc) in Hs. destruct (ct_event _ _ Hc s Hs) as [E1 E2]. unfold bnd in E1, E2. rewrite E1, E2.
    pose proof (cut_x 0 N s ltac:(lia) HN Hs) as A. pose proof (cut_x 1 0 s ltac:(lia) total_pos Hs) as B. cbn [Nat.mul Nat.add] in A. replace (1 * N + 0)%nat with N in B by lia. fold N. rewrite <- A, <- B. split; cbn; lra.
  - intros s Hs. cbn [mp_ocp mp_orders mp2] in *. nred. rewrite (ct_nu _ _ Hc) in Hs.
    pose proof (cut_u 0 N s ltac:(lia) HN Hs) as A. pose proof (cut_u 1 0 s ltac:(lia) total_pos Hs) as B. cbn [Nat.mul Nat.add] in A. replace (1 * N + 0)%nat with N in B by lia. fold N. rewrite <- A, <- B. reflexivity.
  - symmetry. exact (jn_mid _ _ _ _ _ _ Hj).
Qed.
Lemma cut_all : ((forall e, (e < 2)%nat -> bounds_ok mp2 e (ye e)) /\ (forall e, (e < 2)%nat -> phase_ok mp2 rs (we e) e (ye e)) /\ links_ok mp2 ye) <->
  (bounds_ok mp 0 y /\ phase_ok mp (rs ++ rs) w 0 y) /\ cut_time_ok o2 (y_t0 (ye 1)) /\ cut_right_ok mp2 (nth 0 rs []) (we 1) (ye 1).
Proof.
  destruct cut_conts as [U1 U2]. split.
  - intros (A & B & _). apply cut_bounds in A. destruct A as [A1 A2].
    pose proof (proj1 cut_dynamics (fun e He => proj1 (B e He))) as [D1 D2].
    pose proof (proj1 cut_slopes (fun e He => proj1 (proj2 (proj2 (B e He))))) as [S1 S2].
    split; [split; [exact A1|]|split; [exact A2|split; [exact D2|exact S2]]].
    split; [exact D1|]. split; [apply cut_paths; intros e He; apply (B e He)|]. split; [exact S1|]. split; [apply cut_mids; intros e He; apply (B e He)|]. split; [exact U2|]. apply cut_terms. intros e He. apply (B e He).
  - intros ((A & B1 & B2 & B3 & B4 & _ & B6) & C & D1 & D2). split; [apply cut_bounds; auto|]. split; [|exact cut_links].
    intros e He. split; [apply cut_dynamics; auto|]. split; [apply cut_paths; auto|]. split; [apply cut_slopes; auto|]. split; [apply cut_mids; auto|]. split; [apply U1; auto|]. apply cut_terms; auto.
Qed.
(** objectives *)
Lemma cut_run_at e k j : (e < 2)%nat -> (k < K)%nat -> (j <= nth k orders 0)%nat -> run_at mp (rs ++ rs) w 0 y (e * K + k) j = run_at mp2 rs (we e) e (ye e) k j.
Proof.
  intros He Hk Hjk. unfold run_at. cbn [mp_ocp mp_orders mp_cf mp mp2]. rewrite cut_nth_rs, cut_time, cut_off, <- Nat.add_assoc by lia. symmetry. apply cut_run; [exact He|].
  apply (seg_fits orders k (nth k orders 0%nat) j); [apply nth_error_nth'; rewrite cut_K; exact Hk|exact Hjk].
Qed.
Lemma cut_wts e k : (e < 2)%nat -> (k < K)%nat -> wts cf (orders ++ orders) (e * K + k) = wts cf orders k.
Proof. intros He Hk. unfold wts. pose proof (nth_twice orders e k 0%nat He) as X. rewrite cut_K in X. rewrite (X Hk). reflexivity. Qed.
Lemma cut_cost : node_cost mp2 rs (we 0) 0 (ye 0) + node_cost mp2 rs (we 1) 1 (ye 1) =
  node_cost mp (rs ++ rs) w 0 y + seg_h cf (we 1) (ye 1) 0 * nth 0 (wts cf orders 0) 0 * run_val o2 1 (ye 1) 0 (y_t0 (ye 1)).
Proof.
  unfold node_cost. cbn [mp_ocp mp_orders mp_cf mp mp2]. destruct cut_first as [_ ->]. rewrite cut_mayer. rewrite app_length, cut_K, Rsum_app.
  assert (E0 : Rsum K (seg_cost mp (rs ++ rs) w 0 y (wts cf (orders ++ orders))) = Rsum K (seg_cost mp2 rs (we 0) 0 (ye 0) (wts cf orders))).
  { apply Rsum_ext. intros k Hk. unfold seg_cost. cbn [mp_ocp mp_orders mp_cf mp mp2]. pose proof (nth_twice orders 0 k 0%nat ltac:(lia) ltac:(rewrite cut_K; exact Hk)) as X. pose proof (cut_h 0 k ltac:(lia) Hk) as Y. pose proof (cut_wts 0 k ltac:(lia) Hk) as Z. cbn [Nat.mul Nat.add] in X, Y, Z.
    rewrite X, Y. f_equal. apply Rsum_ext. intros j Hjk. pose proof (cut_run_at 0 k j ltac:(lia) Hk ltac:(lia)) as V. cbn [Nat.mul Nat.add] in V. rewrite V. unfold omega. rewrite Z. reflexivity. }
  assert (E1 : forall k, (k < K)%nat -> seg_cost mp2 rs (we 1) 1 (ye 1) (wts cf orders) k = seg_cost mp (rs ++ rs) w 0 y (wts cf (orders ++ orders)) (K + k) +
     (if Nat.eqb k 0 then seg_h cf (we 1) (ye 1) 0 * nth 0 (wts cf orders 0) 0 * run_val o2 1 (ye 1) 0 (y_t0 (ye 1)) else 0)).
  { intros k Hk. unfold seg_cost. cbn [mp_ocp mp_orders mp_cf mp mp2]. pose proof (nth_twice orders 1 k 0%nat ltac:(lia) ltac:(rewrite cut_K; exact Hk)) as X. rewrite cut_K in X. pose proof (cut_h 1 k ltac:(lia) Hk) as Y. pose proof (cut_wts 1 k ltac:(lia) Hk) as Z. rewrite Nat.mul_1_l in X, Y, Z.
    rewrite X, Y. rewrite !Rsum_S_l.
    rewrite (Rsum_ext (nth k orders 0%nat) (fun j => omega (wts cf (orders ++ orders)) (K + k) (S j) * run_at mp (rs ++ rs) w 0 y (K + k) (S j)) (fun j => omega (wts cf orders) k (S j) * run_at mp2 rs (we 1) 1 (ye 1) k (S j))).
    - unfold omega at 1 3. replace (Nat.leb 1 (K + k)) with true by (symmetry; apply Nat.leb_le; pose proof cut_K1; lia). rewrite (Nat.eqb_refl 0), andb_true_r. cbn [andb]. destruct k as [|k]; cbn [Nat.leb Nat.eqb]; [|match goal with |- @eq _ ?a ?b => change (@eq R a b) end; ring].
      replace (run_at mp2 rs (we 1) 1 (ye 1) 0 0) with (run_val o2 1 (ye 1) 0 (y_t0 (ye 1))); [match goal with |- @eq _ ?a ?b => change (@eq R a b) end; ring|]. unfold run_at. cbn [mp_ocp mp_orders mp_cf mp2]. rewrite offset_0, seg_time_0. reflexivity.
    - intros j Hjk. pose proof (cut_run_at 1 k (S j) ltac:(lia) Hk ltac:(lia)) as V. rewrite Nat.mul_1_l in V. rewrite V. unfold omega. cbn [Nat.eqb]. rewrite !andb_false_r, Z. reflexivity. }
  rewrite E0, (Rsum_ext K _ _ E1), Rsum_plus.
  assert (E2 : Rsum K (fun k => if Nat.eqb k 0 then seg_h cf (we 1) (ye 1) 0 * nth 0 (wts cf orders 0) 0 * run_val o2 1 (ye 1) 0 (y_t0 (ye 1)) else 0) = seg_h cf (we 1) (ye 1) 0 * nth 0 (wts cf orders 0) 0 * run_val o2 1 (ye 1) 0 (y_t0 (ye 1))).
  { pose proof cut_K1. destruct K as [|m]; [lia|]. rewrite Rsum_S_l. cbn [Nat.eqb]. rewrite Rsum_0; [ring|reflexivity]. }
  rewrite E2. match goal with |- @eq _ ?a ?b => change (@eq R a b) end. ring.
Qed.
End Cut.

Definition first_basis (j : nat) : R := if Nat.eqb j 0 then 1 else 0.
Lemma basis_weight cf q r (b : list R) : cfg_ok cf -> (1 <= q)%nat -> c_roots cf q = Ok r -> interpolates b r first_basis ->
  exists W, quad_weights cf q (cf_tau0 cf) (cf_tau1 cf) = Ok W /\ nth 0 W 0 = RInt (peval b) (cf_tau0 cf) (cf_tau1 cf).
Proof.
  intros Hcf Hq Er [Lb Eb]. destruct (weights_at cf q r Hcf Hq Er) as (W & EW & LW & HX). exists W. split; [exact EW|].
  destruct (c_roots_good cf q Hcf Hq) as (r' & Er' & Hg). assert (r' = r) as -> by (pose proof (eq_trans (eq_sym Er') Er) as X; injection X as X; exact X). destruct Hg as (L & _). nred.
  rewrite <- HX by lia. rewrite Rsum_S_l, (Rsum_0 q).
  - rewrite Eb by lia. unfold first_basis. cbn [Nat.eqb]. match goal with |- @eq _ ?a ?c => change (@eq R a c) end. ring.
  - intros j Hj. rewrite Eb by lia. unfold first_basis. cbn [Nat.eqb]. match goal with |- @eq _ ?a ?c => change (@eq R a c) end. ring.
Qed.
Lemma basis_lgr cf q r (b : list R) : cfg_ok cf -> cf_scheme cf = "LGR"%string -> (2 <= q)%nat -> c_roots cf q = Ok r -> interpolates b r first_basis ->
  RInt (peval b) (cf_tau0 cf) (cf_tau1 cf) = 0.
Proof.
  intros Hcf Hs Hq Er Hb. pose proof (lgr_first_weight cf q r Hcf Hs Hq Er) as Hw.
  destruct (c_roots_good cf q Hcf ltac:(lia)) as (r' & Er' & Hg). assert (r' = r) as -> by (pose proof (eq_trans (eq_sym Er') Er) as X; injection X as X; exact X).
  pose proof (good_nodup _ _ _ _ Hg) as Hnd. destruct Hg as (L & _). nred.
  replace (RInt (peval b) (cf_tau0 cf) (cf_tau1 cf)) with (ell_int r (cf_tau0 cf) (cf_tau1 cf) 0); [exact Hw|].
  unfold ell_int. apply RInt_ext. intros x _. apply (interp_unique r); auto.
  - pose proof (length_lagrange_num r 0 ltac:(nred; lia)) as L'. nred. lia.
  - apply Hb.
  - intros j Hj. destruct Hb as [_ Hb]. rewrite (Hb j Hj). rewrite peval_lagrange_num, lagv_node by (auto; nred; lia).
    unfold first_basis. destruct (Nat.eqb_spec j 0); destruct (Nat.eqb_spec 0 j); try lia; reflexivity.
Qed.
Theorem cut_thm (mp2 : mpo Rnum) o npath nterm npath2 nterm2 z p z2 p2 : let mp := Mpo o (2 * mp_nseg mp2) (mp_orders mp2 ++ mp_orders mp2) (mp_cf mp2) in
  input_ok mp npath nterm z p -> input_ok mp2 npath2 nterm2 z2 p2 -> cut_phase o (mp_ocp mp2) -> joined mp mp2 z p z2 p2 -> Rsum (mp_nseg mp2) (width mp2 p2 0) = 1 ->
  exists r n n2, c_roots (mp_cf mp2) (nth 0 (mp_orders mp2) 0%nat) = Ok r /\ nlp_at mp z p = Ok n /\ nlp_at mp2 z2 p2 = Ok n2 /\
    (feasible n2 <-> feasible n /\ cut_time_ok (mp_ocp mp2) (y_t0 (user_traj mp2 z2 1)) /\ cut_right_ok mp2 r (width mp2 p2 1) (user_traj mp2 z2 1)) /\
    (exists b, interpolates b r (fun j => if Nat.eqb j 0 then 1 else 0)) /\
    (forall b, interpolates b r (fun j => if Nat.eqb j 0 then 1 else 0) ->
       n_f n2 = n_f n + seg_h (mp_cf mp2) (width mp2 p2 1) (user_traj mp2 z2 1) 0 * RInt (peval b) (cf_tau0 (mp_cf mp2)) (cf_tau1 (mp_cf mp2)) *
                        run_val (mp_ocp mp2) 1 (user_traj mp2 z2 1) 0 (y_t0 (user_traj mp2 z2 1))) /\
    (cf_scheme (mp_cf mp2) = "LGR"%string -> (2 <= nth 0 (mp_orders mp2) 0)%nat -> n_f n2 = n_f n).
Proof.
  destruct mp2 as [o2 K orders cf]. intros mp Hin Hin2 Hc Hj Hsum. cbn [mp_ocp mp_nseg mp_orders mp_cf] in *. pose proof (in_mpo _ _ _ _ _ Hin2) as Hm. set (mp2 := Mpo o2 K orders cf) in *.
  destruct (nlp_like mp _ _ _ _ (user_traj mp z) Hin (fun ph _ => same_refl _ _)) as (rs' & n & Er' & En & _ & Hf & Hn).
  destruct (nlp_like mp2 _ _ _ _ (user_traj mp2 z2) Hin2 (fun ph _ => same_refl _ _)) as (rs & n2 & Er & En2 & Hlen & Hf2 & Hn2).
  cbn [mp_ocp mp_orders mp_cf mp mp2] in Er, Er', Hlen, Hf, Hn, Hf2, Hn2.
  assert (rs' = rs ++ rs) as -> by (pose proof (eq_trans (eq_sym Er') (cut_rs orders cf rs Er)) as X; injection X as X; exact X).
  destruct (mapM_inv _ _ _ Er) as [Hl HI].
  assert (Hroots : forall k q, nth_error orders k = Some q -> (1 <= q)%nat /\ c_roots cf q = Ok (nth k rs []) /\ good_nodes (cf_tau0 cf) (cf_tau1 cf) q (nth k rs [])).
  { intros k q Eq. destruct (HI k q Eq) as (r & E1 & E2). rewrite (nth_error_nth _ _ _ E1). pose proof (mo_pos _ Hm q (nth_error_In _ _ Eq)) as Hq. split; [exact Hq|]. split; [exact E2|].
    destruct (c_roots_good cf q (mo_cfg _ Hm) Hq) as (r' & E3 & Hg). assert (r' = r) as <- by (pose proof (eq_trans (eq_sym E3) E2) as X; injection X as X; exact X). exact Hg. }
  pose proof (mo_len _ Hm) as LK. pose proof (mo_nseg _ Hm) as K1. cbn [mp_orders mp_nseg mp2] in LK, K1.
  destruct (some_fn orders _ 0 LK ltac:(lia)) as (q0 & Eq0). destruct (Hroots 0%nat q0 Eq0) as (Hq0 & Er0 & Hg0).
  assert (Hfirst : forall k q, nth_error orders k = Some q -> nth 0 (nth k rs []) 0 = cf_tau0 cf) by (intros k q Eq; apply (Hroots k q Eq)).
  assert (Hlast : forall k q, nth_error orders k = Some q -> nth q (nth k rs []) 0 = cf_tau1 cf) by (intros k q Eq; apply (Hroots k q Eq)).
  exists (nth 0 rs []), n, n2. split; [rewrite (nth_error_nth _ _ _ Eq0); exact Er0|]. split; [exact En|]. split; [exact En2|].
  assert (HC : forall b, interpolates b (nth 0 rs []) (fun j => if Nat.eqb j 0 then 1 else 0) ->
    n_f n2 = n_f n + seg_h cf (width mp2 p2 1) (user_traj mp2 z2 1) 0 * RInt (peval b) (cf_tau0 cf) (cf_tau1 cf) * run_val o2 1 (user_traj mp2 z2 1) 0 (y_t0 (user_traj mp2 z2 1))).
  { intros b Hb. destruct (basis_weight cf q0 _ b (mo_cfg _ Hm) Hq0 Er0 Hb) as (W & EW & E0). rewrite Hn, Hn2. rewrite (ct_nph _ _ Hc), (ct_nph2 _ _ Hc). cbn [Rsum].
    pose proof (cut_cost o o2 K orders cf _ _ _ _ z p z2 p2 Hin Hin2 Hc Hj Hsum rs Er Hlen Hfirst) as X. fold mp mp2 in X.
    assert (Ew : wts cf orders 0 = W) by (unfold wts; rewrite (nth_error_nth _ _ _ Eq0), EW; reflexivity). rewrite Ew in X. nred. rewrite E0 in X. lra. }
  split; [|split; [|split]].
  - rewrite Hf, Hf2, (ct_nph _ _ Hc), (ct_nph2 _ _ Hc).
    pose proof (cut_all o o2 K orders cf _ _ _ _ z p z2 p2 Hin Hin2 Hc Hj Hsum rs Er Hlen Hfirst Hlast) as X. fold mp mp2 in X. split.
    + intros H. apply X in H. destruct H as ((A & B) & C & D). split; [|split; [exact C|exact D]]. split; [intros ph Hph; assert (ph = 0)%nat as -> by lia; exact A|]. split; [intros ph Hph; assert (ph = 0)%nat as -> by lia; exact B|].
      unfold links_ok. cbn [mp_ocp mp]. rewrite (ct_nph _ _ Hc). intros H. exfalso. exact (Nat.lt_irrefl _ H).
    + intros ((A & B & _) & C & D). apply X. split; [split; [exact (A 0%nat ltac:(lia))|exact (B 0%nat ltac:(lia))]|split; [exact C|exact D]].
  - destruct (interp_exists (nth 0 rs []) first_basis (good_nodup _ _ _ _ Hg0)) as (b & Hb). exists b. exact Hb.
  - exact HC.
  - intros Hs Hq. destruct (interp_exists (nth 0 rs []) first_basis (good_nodup _ _ _ _ Hg0)) as (b & Hb). rewrite (HC b Hb). rewrite (nth_error_nth _ _ _ Eq0) in Hq.
    rewrite (basis_lgr cf q0 _ b (mo_cfg _ Hm) Hs Hq Er0 Hb). match goal with |- @eq _ ?a ?c => change (@eq R a c) end. ring.
Qed.

(** ** points for the two problems *)
Lemma make_widths n nph (f : nat -> nat -> R) : (forall ph k, (ph < nph)%nat -> (k < n)%nat -> 0 < f ph k) -> (forall ph, (ph < nph)%nat -> Rsum n (f ph) = 1) ->
  exists p, widths_ok n nph p /\ forall ph k, (ph < nph)%nat -> (k < n)%nat -> nth (ph * n + k) p 0 = f ph k.
Proof.
  intros Hpos Hsum. set (g := fun i => f (i / n)%nat (i mod n)%nat). set (p := map g (seq 0 (n * nph))). exists p.
  assert (Hn : forall ph k, (ph < nph)%nat -> (k < n)%nat -> nth (ph * n + k) p 0 = f ph k).
  { intros ph k Hph Hk. unfold p. assert (Hlt : (ph * n + k < n * nph)%nat) by nia.
    rewrite (nth_indep _ 0 (g 0%nat)) by (rewrite map_length, seq_length; exact Hlt). rewrite (map_nth g), seq_nth by exact Hlt. cbn [Nat.add]. unfold g.
    rewrite (Nat.add_comm (ph * n) k), Nat.div_add, Nat.mod_add, Nat.div_small, Nat.mod_small by lia. reflexivity. }
  assert (Lp : length p = (n * nph)%nat) by (unfold p; rewrite map_length, seq_length; reflexivity).
  split; [|exact Hn]. split; [exact Lp|]. intros ph Hph.
  assert (LP : length (phase_part n ph p) = n) by (unfold phase_part; rewrite firstn_length, skipn_length, Lp; nia).
  assert (E : forall k, (k < n)%nat -> nth k (phase_part n ph p) 0 = f ph k).
  { intros k Hk. unfold phase_part. rewrite nth_firstn_lt by exact Hk. rewrite nth_skipn. rewrite <- (Hn ph k Hph Hk). f_equal. nia. }
  split; [exact LP|]. split.
  - intros x Hx. destruct (In_nth _ _ 0 Hx) as (k & Hk & <-). rewrite LP in Hk. rewrite (E k Hk). apply Hpos; assumption.
  - rewrite AdResid.total_Rsum, LP. rewrite (Rsum_ext _ _ _ E). apply Hsum. exact Hph.
Qed.
Lemma twice_ok (mp2 : mpo Rnum) o : mpo_ok mp2 -> mpo_ok (Mpo o (2 * mp_nseg mp2) (mp_orders mp2 ++ mp_orders mp2) (mp_cf mp2)).
Proof.
  intros [A B C D]. constructor; cbn [mp_cf mp_nseg mp_orders]; [exact A|rewrite app_length, B; lia|lia|]. intros q Hq. apply in_app_iff in Hq. destruct Hq; apply D; assumption.
Qed.
(** every point of the cut problem without a jump in its parameters is a joined point of the uncut one *)
Theorem join_exists (mp2 : mpo Rnum) o npath nterm npath2 nterm2 z2 p2 n2 : let mp := Mpo o (2 * mp_nseg mp2) (mp_orders mp2 ++ mp_orders mp2) (mp_cf mp2) in
  input_ok mp2 npath2 nterm2 z2 p2 -> ocp_ok o npath nterm -> scales_pos o -> cut_phase o (mp_ocp mp2) -> widths_ok (mp_nseg mp2) 2 p2 ->
  nlp_at mp2 z2 p2 = Ok n2 -> feasible n2 ->
  (forall e, (e < 2)%nat -> y_t0 (user_traj mp2 z2 e) < y_tf (user_traj mp2 z2 e)) ->
  (forall s, (s < o_na o)%nat -> y_a (user_traj mp2 z2 0) s = y_a (user_traj mp2 z2 1) s) ->
  exists z p, input_ok mp npath nterm z p /\ widths_ok (2 * mp_nseg mp2) 1 p /\ joined mp mp2 z p z2 p2.
Proof.
  intros mp Hin2 Hok Hsc Hc Hw En Hf Ht Ha. pose proof (in_mpo _ _ _ _ _ Hin2) as Hm.
  destruct (nlp_like mp2 _ _ _ _ (user_traj mp2 z2) Hin2 (fun ph _ => same_refl _ _)) as (rs & n' & Er & En' & _ & Hf2 & _).
  assert (n' = n2) as -> by (pose proof (eq_trans (eq_sym En') En) as X; injection X as X; exact X). apply Hf2 in Hf. destruct Hf as (_ & _ & Hl). clear Hf2 En'.
  specialize (Hl ltac:(rewrite (ct_nph2 _ _ Hc); lia) 0%nat 0%nat 1%nat ltac:(rewrite (ct_links _ _ Hc); reflexivity)). destruct Hl as (L1 & L2 & L3).
  pose proof (Ht 0%nat ltac:(lia)) as T0. pose proof (Ht 1%nat ltac:(lia)) as T1.
  set (ye := user_traj mp2 z2) in *. set (N := (total_nodes (mp_orders mp2) - 1)%nat) in *. set (K := mp_nseg mp2) in *.
  pose proof (in_mpo _ _ _ _ _ Hin2) as Hm2. pose proof (mo_nseg _ Hm) as K1. fold K in K1.
  assert (Hw2 : widths_ok (mp_nseg mp2) (o_nph (mp_ocp mp2)) p2) by (rewrite (ct_nph2 _ _ Hc); exact Hw).
  assert (HW : forall e, (e < 2)%nat -> (forall k, (k < K)%nat -> 0 < width mp2 p2 e k) /\ Rsum K (width mp2 p2 e) = 1).
  { intros e He. destruct (part_widths mp2 p2 Hm Hw2 e) as [A B]; [rewrite (ct_nph2 _ _ Hc); exact He|]. rewrite (mo_len _ Hm) in A, B. auto. }
  set (D := y_tf (ye 1%nat) - y_t0 (ye 0%nat)). assert (HD : 0 < D) by (unfold D; lra).
  set (f := fun (_ k : nat) => if Nat.ltb k K then (y_tf (ye 0%nat) - y_t0 (ye 0%nat)) * width mp2 p2 0 k / D else (y_tf (ye 1%nat) - y_t0 (ye 1%nat)) * width mp2 p2 1 (k - K) / D).
  destruct (make_widths (2 * K) 1 f) as (p & Hp & Ep).
  { intros ph k _ Hk. unfold f. destruct (Nat.ltb_spec k K).
    - destruct (HW 0%nat ltac:(lia)) as [A _]. specialize (A k ltac:(lia)). apply Rmult_lt_0_compat; [apply Rmult_lt_0_compat; lra|apply Rinv_0_lt_compat; exact HD].
    - destruct (HW 1%nat ltac:(lia)) as [A _]. specialize (A (k - K)%nat ltac:(lia)). apply Rmult_lt_0_compat; [apply Rmult_lt_0_compat; lra|apply Rinv_0_lt_compat; exact HD]. }
  { intros ph _. replace (2 * K)%nat with (K + K)%nat by lia. rewrite Rsum_app.
    rewrite (Rsum_ext K (f ph) (fun k => (y_tf (ye 0%nat) - y_t0 (ye 0%nat)) / D * width mp2 p2 0 k)) by (intros k Hk; unfold f; rewrite (proj2 (Nat.ltb_lt k K) Hk); unfold Rdiv; ring).
    rewrite (Rsum_ext K (fun k => f ph (K + k)%nat) (fun k => (y_tf (ye 1%nat) - y_t0 (ye 1%nat)) / D * width mp2 p2 1 k)).
    - rewrite !Rsum_scal, (proj2 (HW 0%nat ltac:(lia))), (proj2 (HW 1%nat ltac:(lia))). unfold D. rewrite L3. field. unfold D in HD. lra.
    - intros k Hk. unfold f. rewrite (proj2 (Nat.ltb_ge (K + k) K) ltac:(lia)). replace (K + k - K)%nat with k by lia. unfold Rdiv. ring. }
  set (yy := Utraj (fun i s => if Nat.leb i N then y_x (ye 0%nat) i s else y_x (ye 1%nat) (i - N) s) (fun i s => if Nat.leb i N then y_u (ye 0%nat) i s else y_u (ye 1%nat) (i - N) s) (y_t0 (ye 0%nat)) (y_tf (ye 1%nat)) (y_a (ye 0%nat))).
  set (z := pack mp (fun _ => yy)).
  pose proof (pack_traj mp (fun _ => yy) 0 (ok_shapes _ _ _ Hok) Hsc ltac:(cbn [mp_ocp mp]; rewrite (ct_nph _ _ Hc); lia)) as (P1 & P2 & P3 & P4 & P5). fold z in P1, P2, P3, P4, P5. cbn [mp_ocp mp_orders mp] in P1, P2, P5.
  assert (EN : total_nodes (mp_orders mp2) = (N + 1)%nat) by (unfold N, total_nodes; lia).
  assert (Hnode : forall e i, (e < 2)%nat -> (i < total_nodes (mp_orders mp2))%nat -> (e * N + i < total_nodes (mp_orders mp2 ++ mp_orders mp2))%nat).
  { intros e i He Hi. rewrite total_twice. fold N. destruct e as [|[|e]]; lia. }
  exists z, p. split; [|split; [exact Hp|]].
  - constructor; [exact (twice_ok mp2 o Hm)|exact Hok|exact Hsc|apply length_pack|]. destruct Hp as [Lp _]. cbn [mp_ocp mp_nseg mp]. rewrite Lp, (ct_nph _ _ Hc). lia.
  - constructor; cbn [mp_ocp mp_orders mp].
    + intros e i s He Hi Hs. fold N. rewrite P1 by auto. fold ye. cbn [yy y_x]. destruct e as [|[|e]]; [| |lia].
      * cbn [Nat.mul Nat.add]. rewrite (proj2 (Nat.leb_le i N) ltac:(lia)). reflexivity.
      * destruct (Nat.leb_spec (1 * N + i) N).
        -- assert (i = 0)%nat as -> by lia. replace (1 * N + 0)%nat with N by lia. specialize (L1 s). rewrite (ct_nx _ _ Hc) in L1. destruct (ct_event _ _ Hc s Hs) as [E1 E2]. unfold bnd in E1, E2. specialize (L1 Hs). destruct L1 as [A B]. pose proof (eq_ind _ (fun b => above b _) A _ E1) as A'. pose proof (eq_ind _ (fun b => below b _) B _ E2) as B'. cbn [above below] in A', B'. fold N in A', B'. lra.
        -- f_equal. lia.
    + intros e i s He Hi Hs. fold N. rewrite P2 by auto. fold ye. cbn [yy y_u]. destruct e as [|[|e]]; [| |lia].
      * cbn [Nat.mul Nat.add]. rewrite (proj2 (Nat.leb_le i N) ltac:(lia)). reflexivity.
      * destruct (Nat.leb_spec (1 * N + i) N).
        -- assert (i = 0)%nat as -> by lia. replace (1 * N + 0)%nat with N by lia. specialize (L2 s). rewrite (ct_nu _ _ Hc) in L2. specialize (L2 Hs). fold N in L2. symmetry. exact L2.
        -- f_equal. lia.
    + intros e s He Hs. fold ye. rewrite P5 by exact Hs. destruct e as [|[|e]]; [| |lia]; [reflexivity|]. exact (Ha s Hs).
    + exact P3.
    + symmetry. exact L3.
    + exact P4.
    + intros e k He Hk. fold ye K. fold K in Hk. rewrite P3, P4. cbn [yy y_t0 y_tf]. fold D. unfold width at 1. cbn [mp_nseg mp Nat.mul]. fold K.
      pose proof (Ep 0%nat (e * K + k)%nat ltac:(lia)) as X. cbn [Nat.mul Nat.add] in X. cbn [Nat.add]. rewrite X by (destruct e as [|[|e]]; lia). unfold f.
      destruct e as [|[|e]]; [| |lia].
      * cbn [Nat.mul Nat.add]. rewrite (proj2 (Nat.ltb_lt k K) Hk). field. lra.
      * rewrite (proj2 (Nat.ltb_ge (1 * K + k) K) ltac:(lia)). replace (1 * K + k - K)%nat with k by lia. field. lra.
Qed.
(** every point of the uncut problem is a joined point of the cut one *)
Theorem cut_exists (mp2 : mpo Rnum) o npath nterm npath2 nterm2 z p : let mp := Mpo o (2 * mp_nseg mp2) (mp_orders mp2 ++ mp_orders mp2) (mp_cf mp2) in
  input_ok mp npath nterm z p -> mpo_ok mp2 -> ocp_ok (mp_ocp mp2) npath2 nterm2 -> scales_pos (mp_ocp mp2) -> cut_phase o (mp_ocp mp2) -> widths_ok (2 * mp_nseg mp2) 1 p ->
  exists z2 p2, input_ok mp2 npath2 nterm2 z2 p2 /\ widths_ok (mp_nseg mp2) 2 p2 /\ joined mp mp2 z p z2 p2.
Proof.
  intros mp Hin Hm Hok2 Hsc2 Hc Hw. set (y := user_traj mp z 0). set (N := (total_nodes (mp_orders mp2) - 1)%nat). set (K := mp_nseg mp2). pose proof (mo_nseg _ Hm) as K1. fold K in K1. set (w := width mp p 0).
  assert (HW : (forall k, (k < 2 * K)%nat -> 0 < w k) /\ Rsum (2 * K) w = 1).
  { pose proof (in_mpo _ _ _ _ _ Hin) as Hmp. assert (Hw' : widths_ok (mp_nseg mp) (o_nph (mp_ocp mp)) p) by (cbn [mp_nseg mp_ocp mp]; rewrite (ct_nph _ _ Hc); exact Hw).
    destruct (part_widths mp p Hmp Hw' 0) as [A B]; [cbn [mp_ocp mp]; rewrite (ct_nph _ _ Hc); lia|]. rewrite (mo_len _ Hmp) in A, B. auto. }
  destruct HW as [Wp Ws]. replace (2 * K)%nat with (K + K)%nat in Ws by lia. rewrite Rsum_app in Ws.
  assert (Pos : forall n (g : nat -> R), (1 <= n)%nat -> (forall k, (k < n)%nat -> 0 < g k) -> 0 < Rsum n g).
  { intros n g Hn Hg. induction n as [|n IH]; [lia|]. cbn [Rsum]. specialize (Hg n ltac:(lia)) as G. destruct n as [|n]; [cbn [Rsum]; lra|]. specialize (IH ltac:(lia) (fun k Hk => Hg k ltac:(lia))). lra. }
  set (S0 := Rsum K w) in *. set (S1 := Rsum K (fun k => w (K + k)%nat)) in *.
  assert (H0 : 0 < S0) by (apply Pos; [exact K1|intros k Hk; apply Wp; lia]). assert (H1 : 0 < S1) by (apply Pos; [exact K1|intros k Hk; apply Wp; lia]).
  set (f := fun (e k : nat) => w (e * K + k)%nat / (if Nat.eqb e 0 then S0 else S1)).
  destruct (make_widths K 2 f) as (p2 & Hp & Ep).
  { intros ph k Hph Hk. unfold f. apply Rmult_lt_0_compat; [apply Wp; destruct ph as [|[|ph]]; lia|]. apply Rinv_0_lt_compat. destruct (Nat.eqb ph 0); assumption. }
  { intros ph Hph. unfold f. rewrite (Rsum_ext K _ (fun k => / (if Nat.eqb ph 0 then S0 else S1) * w (ph * K + k)%nat)) by (intros; unfold Rdiv; ring). rewrite Rsum_scal.
    destruct ph as [|[|ph]]; [| |lia]; cbn [Nat.eqb].
    - cbn [Nat.mul Nat.add]. change (Rsum K (fun k => w k)) with S0. field. lra.
    - rewrite Nat.mul_1_l. fold S1. field. lra. }
  set (tm := y_t0 y + (y_tf y - y_t0 y) * S0).
  set (ye := fun e => Utraj (fun i s => y_x y (e * N + i)%nat s) (fun i s => y_u y (e * N + i)%nat s) (if Nat.eqb e 0 then y_t0 y else tm) (if Nat.eqb e 0 then tm else y_tf y) (y_a y)).
  set (z2 := pack mp2 ye).
  assert (P : forall e, (e < 2)%nat -> same_traj mp2 (user_traj mp2 z2 e) (ye e)) by (intros e He; apply (pack_traj mp2 ye e (ok_shapes _ _ _ Hok2) Hsc2); rewrite (ct_nph2 _ _ Hc); exact He).
  exists z2, p2. split; [|split; [exact Hp|]].
  - constructor; [exact Hm|exact Hok2|exact Hsc2|apply length_pack|]. destruct Hp as [Lp _]. rewrite Lp, (ct_nph2 _ _ Hc). fold K. lia.
  - constructor; cbn [mp_ocp mp_orders mp].
    + intros e i s He Hi Hs. destruct (P e He) as (A & _). rewrite A by (try rewrite (ct_nx _ _ Hc); auto). reflexivity.
    + intros e i s He Hi Hs. destruct (P e He) as (_ & A & _). rewrite A by (try rewrite (ct_nu _ _ Hc); auto). reflexivity.
    + intros e s He Hs. destruct (P e He) as (_ & _ & _ & _ & A). rewrite A by (rewrite (ct_na _ _ Hc); exact Hs). reflexivity.
    + destruct (P 0%nat ltac:(lia)) as (_ & _ & A & _). rewrite A. reflexivity.
    + destruct (P 0%nat ltac:(lia)) as (_ & _ & _ & A & _). destruct (P 1%nat ltac:(lia)) as (_ & _ & B & _). rewrite A, B. reflexivity.
    + destruct (P 1%nat ltac:(lia)) as (_ & _ & _ & A & _). rewrite A. reflexivity.
    + intros e k He Hk. destruct (P e He) as (_ & _ & A & B & _). rewrite A, B. fold y w K. fold K in Hk. unfold width. fold K. rewrite (Ep e k He Hk). unfold f. cbn [ye y_t0 y_tf].
      destruct e as [|[|e]]; [| |lia]; cbn [Nat.eqb]; unfold tm.
      * field. lra.
      * replace S0 with (1 - S1) by lra. field. lra.
Qed.
