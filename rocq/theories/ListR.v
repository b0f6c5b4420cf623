(** Lemmas on the Python list primitives (proofs). *)
From Coq Require Import Reals List Lia Lra Bool Arith.
From Verif Require Import Num PyList Mat Spec NumR.
Import ListNotations.

Lemma mapM_ok {A B} (f : A -> res B) (g : A -> B) l :
  (forall a, In a l -> f a = Ok (g a)) -> mapM f l = Ok (map g l).
Proof.
  induction l as [|a l IH]; intros H; [reflexivity|]. cbn.
  rewrite H by (left; reflexivity). cbn. rewrite IH by (intros; apply H; right; auto). reflexivity.
Qed.
Lemma mapM_inv {A B} (f : A -> res B) l bs : mapM f l = Ok bs ->
  length bs = length l /\
  forall k a, nth_error l k = Some a -> exists b, nth_error bs k = Some b /\ f a = Ok b.
Proof.
  revert bs; induction l as [|a l IH]; intros bs H; cbn in H.
  - inversion H; subst. split; [reflexivity|]. intros [|k] ? Hk; discriminate.
  - destruct (f a) as [b|] eqn:Ha; [|discriminate]. cbn in H.
    destruct (mapM f l) as [bs'|] eqn:Hl; [|discriminate]. cbn in H. inversion H; subst.
    destruct (IH bs' eq_refl) as [Hlen Hn]. split; [cbn; lia|].
    intros [|k] a' Hk; cbn in *; [inversion Hk; subst; eauto|apply Hn; auto].
Qed.
Lemma mapM_ext {A B} (f g : A -> res B) l : (forall a, In a l -> f a = g a) -> mapM f l = mapM g l.
Proof.
  induction l as [|a l IH]; intros H; [reflexivity|]. cbn.
  rewrite H by (left; auto). rewrite IH by (intros; apply H; right; auto). reflexivity.
Qed.
Lemma mapM_app {A B} (f : A -> res B) l m :
  mapM f (l ++ m) = (a <- mapM f l ;; b <- mapM f m ;; Ok (a ++ b)).
Proof.
  induction l as [|a l IH]; cbn.
  - destruct (mapM f m); reflexivity.
  - destruct (f a); cbn; [|reflexivity]. rewrite IH.
    destruct (mapM f l); cbn; [|reflexivity]. destruct (mapM f m); reflexivity.
Qed.
Lemma mapM_map {A B C} (f : B -> res C) (g : A -> B) l : mapM f (map g l) = mapM (fun a => f (g a)) l.
Proof. induction l; cbn; [reflexivity|]. rewrite IHl. reflexivity. Qed.

Lemma at_ok {A} (l : list A) i d : (i < length l)%nat -> at_ l i = Ok (nth i l d).
Proof. intros H. unfold at_. rewrite (nth_error_nth' l d H). reflexivity. Qed.
Lemma at_inv {A} (l : list A) i a : at_ l i = Ok a -> nth_error l i = Some a.
Proof. unfold at_. destruct (nth_error l i); intros H; inversion H; reflexivity. Qed.
Lemma at_inv_lt {A} (l : list A) i a : at_ l i = Ok a -> (i < length l)%nat.
Proof. intros H. apply at_inv in H. apply nth_error_Some. congruence. Qed.
Lemma at_inv_nth {A} (l : list A) i a d : at_ l i = Ok a -> nth i l d = a.
Proof. intros H. apply at_inv in H. apply nth_error_nth; auto. Qed.

Lemma enumerate_length {A} (l : list A) : length (enumerate l) = length l.
Proof. unfold enumerate. rewrite combine_length, seq_length. lia. Qed.
Lemma nth_error_enumerate_gen {A} (l : list A) s k a :
  nth_error l k = Some a -> nth_error (combine (seq s (length l)) l) k = Some ((s + k)%nat, a).
Proof.
  revert s k; induction l as [|b l IH]; intros s [|k] H; cbn in *; try discriminate.
  - inversion H; subst. rewrite Nat.add_0_r. reflexivity.
  - rewrite (IH (S s)) by auto. do 2 f_equal. lia.
Qed.
Lemma nth_error_enumerate {A} (l : list A) k a :
  nth_error l k = Some a -> nth_error (enumerate l) k = Some (k, a).
Proof. intros H. unfold enumerate. rewrite (nth_error_enumerate_gen l 0 k a H). reflexivity. Qed.
Lemma in_enumerate {A} (l : list A) i a : In (i, a) (enumerate l) -> nth_error l i = Some a.
Proof.
  intros H. apply In_nth_error in H. destruct H as [k Hk].
  destruct (nth_error l k) as [b|] eqn:E.
  - rewrite (nth_error_enumerate l k b E) in Hk. inversion Hk; subst. exact E.
  - apply nth_error_None in E. rewrite <- enumerate_length in E. apply nth_error_None in E.
    unfold enumerate in *. congruence.
Qed.
Lemma in_combine_nth {A B} (l : list A) (m : list B) i a b :
  nth_error (combine l m) i = Some (a, b) -> nth_error l i = Some a /\ nth_error m i = Some b.
Proof.
  revert m i; induction l as [|x l IH]; intros [|y m] [|i]; cbn; intros H; try discriminate.
  - inversion H; auto.
  - apply IH; auto.
Qed.
Lemma nth_error_combine {A B} (l : list A) (m : list B) i a b :
  nth_error l i = Some a -> nth_error m i = Some b -> nth_error (combine l m) i = Some (a, b).
Proof.
  revert m i; induction l as [|x l IH]; intros [|y m] [|i]; cbn; intros H H'; try discriminate.
  - congruence.
  - apply IH; auto.
Qed.

Lemma nsum_fold l a : fold_left Nat.add l a = (a + fold_right Nat.add 0 l)%nat.
Proof. revert a; induction l; intros; cbn; [lia|]. rewrite IHl. lia. Qed.
Lemma nsum_cons a l : nsum (a :: l) = (a + nsum l)%nat.
Proof. unfold nsum. rewrite !nsum_fold. cbn. lia. Qed.
Lemma nsum_app l m : nsum (l ++ m) = (nsum l + nsum m)%nat.
Proof. induction l; [reflexivity|]. cbn [app]. rewrite !nsum_cons, IHl. lia. Qed.
Lemma nsum_firstn l k : nsum (firstn k l) = offset l k.
Proof.
  revert k; induction l as [|p l IH]; intros [|k]; try reflexivity.
  cbn [firstn offset]. rewrite nsum_cons, IH. reflexivity.
Qed.
Lemma nsum_offset l : nsum l = offset l (length l).
Proof. rewrite <- nsum_firstn, firstn_all. reflexivity. Qed.

Lemma offset_0 l : offset l 0 = 0%nat.
Proof. destruct l; reflexivity. Qed.
Lemma offset_S l k p : nth_error l k = Some p -> offset l (S k) = (offset l k + p)%nat.
Proof.
  revert k; induction l as [|q l IH]; intros [|k] H; cbn in *; try discriminate.
  - inversion H; subst. rewrite offset_0. lia.
  - pose proof (IH k H) as E. cbn in E. rewrite E. lia.
Qed.
Lemma offset_S_nth l k : (k < length l)%nat -> offset l (S k) = (offset l k + nth k l 0)%nat.
Proof. intros H. apply offset_S. apply nth_error_nth'; auto. Qed.
Lemma offset_mono l j k : (j <= k)%nat -> (offset l j <= offset l k)%nat.
Proof.
  revert j k; induction l as [|p l IH]; intros [|j] [|k] H; cbn; try lia.
  specialize (IH j k). lia.
Qed.
Lemma offset_all l k : (length l <= k)%nat -> offset l k = offset l (length l).
Proof.
  revert k; induction l as [|p l IH]; intros [|k] H; cbn in *; try lia.
  rewrite IH by lia. reflexivity.
Qed.
Lemma offset_app l m k : (k <= length l)%nat -> offset (l ++ m) k = offset l k.
Proof.
  revert k; induction l as [|p l IH]; intros [|k] H; cbn in *; try lia.
  - destruct m; reflexivity.
  - rewrite IH by lia. reflexivity.
Qed.

(** every node r belongs to a segment k at local index j, and this pair is unique when
    we ask j >= 1 for segments after the first *)
Lemma owner_exists l r : l <> [] -> (r < total_nodes l)%nat ->
  exists k j, (k < length l)%nat /\ (j <= nth k l 0)%nat /\ (k = 0%nat \/ 1 <= j)%nat /\ (r = offset l k + j)%nat.
Proof.
  intros Hne Hr. unfold total_nodes in Hr.
  assert (H : forall n, (1 <= n <= length l)%nat -> (r <= offset l n)%nat ->
    exists k j, (k < n)%nat /\ (j <= nth k l 0)%nat /\ (k = 0%nat \/ 1 <= j)%nat /\ (r = offset l k + j)%nat).
  { induction n as [|n IH]; intros Hn Hle; [lia|].
    rewrite offset_S_nth in Hle by lia.
    destruct (le_lt_dec r (offset l n)) as [Hs|Hs].
    - destruct n as [|n].
      + rewrite offset_0 in *. exists 0%nat, 0%nat. rewrite offset_0. repeat split; try lia.
      + destruct (IH ltac:(lia) Hs) as (k & j & Hk & Hj & Ho & E). exists k, j. repeat split; auto; lia.
    - exists n, (r - offset l n)%nat. repeat split; try lia. }
  destruct l as [|p l]; [congruence|].
  destruct (H (length (p :: l)) ltac:(cbn; lia) ltac:(lia)) as (k & j & ?). exists k, j. tauto.
Qed.
