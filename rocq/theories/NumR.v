(** The instance [Rnum]: the generic operations are the real ones (proofs). *)
From Coq Require Import Reals ZArith List Bool Lia Lra.
From Verif Require Import Num PyList Spec.
Import ListNotations.
Open Scope R_scope.

Ltac nred :=
  cbn [carrier n0 n1 nadd nsub nmul ndiv nopp nltb nleb neqb nsqrt ntrunc Rnum n2 nabs nmax nmin] in *.

Lemma nofpos_R p : @nofpos Rnum p = IZR (Zpos p).
Proof.
  induction p; cbn [nofpos]; nred.
  - rewrite IHp. rewrite (Pos2Z.inj_xI p). rewrite plus_IZR, mult_IZR. lra.
  - rewrite IHp. rewrite (Pos2Z.inj_xO p). rewrite mult_IZR. lra.
  - reflexivity.
Qed.
Lemma nofZ_R z : @nofZ Rnum z = IZR z.
Proof.
  destruct z; cbn [nofZ]; nred.
  - reflexivity.
  - apply nofpos_R.
  - rewrite nofpos_R. rewrite <- opp_IZR. reflexivity.
Qed.
Lemma nofnat_R n : @nofnat Rnum n = INR n.
Proof. unfold nofnat. rewrite nofZ_R. symmetry. apply INR_IZR_INZ. Qed.
Lemma nlit_R a b : @nlit Rnum a b = IZR a / IZR b.
Proof. unfold nlit. rewrite !nofZ_R. reflexivity. Qed.
Lemma n2_R : @n2 Rnum = 2.
Proof. unfold n2; nred. lra. Qed.

Lemma Rltb_true x y : Rltb x y = true <-> x < y.
Proof. unfold Rltb. destruct (Rlt_dec x y); split; try easy. Qed.
Lemma Rltb_false x y : Rltb x y = false <-> y <= x.
Proof. unfold Rltb. destruct (Rlt_dec x y); split; intros; try easy; lra. Qed.
Lemma Rleb_true x y : Rleb x y = true <-> x <= y.
Proof. unfold Rleb. destruct (Rle_dec x y); split; try easy. Qed.
Lemma Rleb_false x y : Rleb x y = false <-> y < x.
Proof. unfold Rleb. destruct (Rle_dec x y); split; intros; try easy; lra. Qed.
Lemma Reqb_true x y : Reqb x y = true <-> x = y.
Proof. unfold Reqb. destruct (Req_EM_T x y); split; try easy. Qed.
Lemma Reqb_false x y : Reqb x y = false <-> x <> y.
Proof. unfold Reqb. destruct (Req_EM_T x y); split; try easy. Qed.

Lemma nabs_R x : @nabs Rnum x = Rabs x.
Proof.
  unfold nabs; nred. destruct (Rltb x 0) eqn:E.
  - apply Rltb_true in E. rewrite Rabs_left by lra. reflexivity.
  - apply Rltb_false in E. rewrite Rabs_pos_eq by lra. reflexivity.
Qed.
Lemma nmax_R x y : @nmax Rnum x y = Rmax x y.
Proof.
  unfold nmax; nred. destruct (Rltb x y) eqn:E.
  - apply Rltb_true in E. rewrite Rmax_right by lra. reflexivity.
  - apply Rltb_false in E. rewrite Rmax_left by lra. reflexivity.
Qed.

(** sums *)
Definition rsum (l : list R) : R := fold_right Rplus 0 l.
Lemma fold_left_Rplus l a : fold_left Rplus l a = a + rsum l.
Proof.
  revert a; induction l as [|b l IH]; intros a; cbn.
  - lra.
  - rewrite IH. unfold rsum. lra.
Qed.
Lemma sum_R (l : list R) : @sum_ Rnum l = rsum l.
Proof. unfold sum_. nred. rewrite fold_left_Rplus. lra. Qed.
Lemma rsum_app l m : rsum (l ++ m) = rsum l + rsum m.
Proof. unfold rsum. induction l; cbn; [lra|rewrite IHl; lra]. Qed.
Lemma rsum_cons a l : rsum (a :: l) = a + rsum l.
Proof. reflexivity. Qed.

Lemma fold_left_sumf (f : nat -> R) l a :
  fold_left (fun acc k => acc + f k) l a = a + rsum (map f l).
Proof.
  revert a; induction l; intros; cbn; [lra|]. rewrite IHl. unfold rsum; lra.
Qed.
Lemma Rsum_rsum n f : Rsum n f = rsum (map f (seq 0 n)).
Proof.
  induction n; [reflexivity|].
  rewrite seq_S, map_app, rsum_app. cbn [Rsum map]. rewrite IHn. cbn. lra.
Qed.
Lemma sumf_R n (f : nat -> R) : @sumf Rnum n f = Rsum n f.
Proof. unfold sumf. nred. rewrite fold_left_sumf, Rsum_rsum. lra. Qed.

Lemma Rsum_ext n f g : (forall k, (k < n)%nat -> f k = g k) -> Rsum n f = Rsum n g.
Proof. induction n; cbn; intros H; [reflexivity|]. rewrite IHn, H; auto. Qed.
Lemma Rsum_plus n f g : Rsum n (fun k => f k + g k) = Rsum n f + Rsum n g.
Proof. induction n; cbn; [lra|rewrite IHn; lra]. Qed.
Lemma Rsum_minus n f g : Rsum n (fun k => f k - g k) = Rsum n f - Rsum n g.
Proof. induction n; cbn; [lra|rewrite IHn; lra]. Qed.
Lemma Rsum_scal n c f : Rsum n (fun k => c * f k) = c * Rsum n f.
Proof. induction n; cbn; [lra|rewrite IHn; lra]. Qed.
Lemma Rsum_scal_r n c f : Rsum n (fun k => f k * c) = Rsum n f * c.
Proof. induction n; cbn; [lra|rewrite IHn; lra]. Qed.
Lemma Rsum_0 n f : (forall k, (k < n)%nat -> f k = 0) -> Rsum n f = 0.
Proof. induction n; cbn; intros H; [reflexivity|]. rewrite IHn, H; auto; lra. Qed.
Lemma Rsum_app n m f : Rsum (n + m) f = Rsum n f + Rsum m (fun k => f (n + k)%nat).
Proof.
  induction m; cbn.
  - rewrite Nat.add_0_r. lra.
  - rewrite Nat.add_succ_r. cbn. rewrite IHm. lra.
Qed.
Lemma Rsum_S_l n f : Rsum (S n) f = f O + Rsum n (fun k => f (S k)).
Proof. change (S n) with (1 + n)%nat. rewrite (Rsum_app 1 n f). cbn. lra. Qed.
Lemma Rsum_single n f k : (k < n)%nat -> (forall i, (i < n)%nat -> i <> k -> f i = 0) ->
  Rsum n f = f k.
Proof.
  induction n; intros Hk H; [lia|]. cbn.
  destruct (Nat.eq_dec k n) as [->|Hn].
  - rewrite Rsum_0; [lra|]. intros i Hi. apply H; lia.
  - rewrite IHn; [|lia|]. rewrite (H n); [lra|lia|auto]. intros i Hi. apply H. lia.
Qed.
Lemma Rsum_block N (f : nat -> R) a b : (a + b <= N)%nat ->
  (forall k, (k < N)%nat -> (k < a \/ a + b <= k)%nat -> f k = 0) ->
  Rsum N f = Rsum b (fun k => f (a + k)%nat).
Proof.
  intros HN H. replace N with (a + (b + (N - a - b)))%nat by lia.
  rewrite Rsum_app. rewrite (Rsum_0 a); [|intros k Hk; apply H; lia].
  rewrite Rsum_app. rewrite (Rsum_0 (N - a - b)); [lra|].
  intros k Hk. apply H; lia.
Qed.
Lemma Rsum_exchange n m (f : nat -> nat -> R) :
  Rsum n (fun i => Rsum m (fun j => f i j)) = Rsum m (fun j => Rsum n (fun i => f i j)).
Proof.
  induction n; cbn.
  - rewrite Rsum_0; auto.
  - rewrite IHn, <- Rsum_plus. reflexivity.
Qed.
Lemma rsum_nth l : rsum l = Rsum (length l) (fun k => nth k l 0).
Proof.
  induction l; [reflexivity|]. rewrite rsum_cons. cbn [length].
  rewrite Rsum_S_l. cbn [nth]. rewrite IHl. reflexivity.
Qed.
