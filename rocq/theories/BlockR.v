(** Stacked vectors, block-diagonal products and blocks of constraints (proofs). *)
From Coq Require Import Reals Lia Lra Bool Arith.
From Coquelicot Require Import Coquelicot.
From Coq Require Import List.
From Verif Require Import Num PyList Mat Poly Roots Colloc Ocp Transcribe Spec SpecOcp NumR ListR.
Import ListNotations.
Open Scope R_scope.

(** ** lists *)
Lemma length_flat_map_const {A B} (f : A -> list B) n l : (forall a, In a l -> length (f a) = n) ->
  length (flat_map f l) = (length l * n)%nat.
Proof.
  induction l as [|a l IH]; intros H; [reflexivity|]. cbn [flat_map length]. rewrite app_length, IH.
  - rewrite (H a) by (left; auto). lia.
  - intros; apply H; right; auto.
Qed.
Lemma nth_flat_map_const {A B} (f : A -> list B) n l d da : (forall a, In a l -> length (f a) = n) ->
  forall k i, (k < length l)%nat -> (i < n)%nat -> nth (k * n + i) (flat_map f l) d = nth i (f (nth k l da)) d.
Proof.
  induction l as [|a l IH]; intros H k i Hk Hi; [cbn in Hk; lia|]. cbn [flat_map].
  assert (Ha : length (f a) = n) by (apply H; left; auto).
  destruct k as [|k]; cbn [nth].
  - rewrite app_nth1 by (cbn; lia). reflexivity.
  - rewrite app_nth2 by (cbn; nia). rewrite Ha. replace (S k * n + i - n)%nat with (k * n + i)%nat by (cbn; lia).
    apply IH; [intros; apply H; right; auto|cbn in Hk; lia|auto].
Qed.
Lemma nth_flat_map_seq {B} (f : nat -> list B) n m d k i :
  (forall a, (a < m)%nat -> length (f a) = n) -> (k < m)%nat -> (i < n)%nat ->
  nth (k * n + i) (flat_map f (seq 0 m)) d = nth i (f k) d.
Proof.
  intros H Hk Hi. rewrite (nth_flat_map_const f n (seq 0 m) d 0%nat).
  - rewrite seq_nth by auto. reflexivity.
  - intros a Ha. apply in_seq in Ha. apply H. lia.
  - rewrite seq_length; auto.
  - auto.
Qed.
Lemma length_flat_map_seq {B} (f : nat -> list B) n m : (forall a, (a < m)%nat -> length (f a) = n) ->
  length (flat_map f (seq 0 m)) = (m * n)%nat.
Proof.
  intros H. rewrite (length_flat_map_const f n); [rewrite seq_length; reflexivity|].
  intros a Ha. apply in_seq in Ha. apply H. lia.
Qed.
(** an index below m * n is block * n + position *)
Lemma divide_index n m i : (i < m * n)%nat -> exists k j, i = (k * n + j)%nat /\ (k < m)%nat /\ (j < n)%nat.
Proof.
  intros H. assert (n <> 0)%nat by nia. exists (i / n)%nat, (i mod n)%nat.
  pose proof (Nat.div_mod i n). pose proof (Nat.mod_upper_bound i n).
  split; [lia|]. split; [|auto]. apply Nat.div_lt_upper_bound; lia.
Qed.
Lemma nth_map_in {A B} (f : A -> B) l i d d' : (i < length l)%nat -> nth i (map f l) d = f (nth i l d').
Proof. intros H. rewrite (nth_indep _ d (f d')) by (rewrite map_length; auto). apply map_nth. Qed.
Lemma nth_map_seq {B} (f : nat -> B) n i d : (i < n)%nat -> nth i (map f (seq 0 n)) d = f i.
Proof. intros H. rewrite (nth_map_in f (seq 0 n) i d 0%nat) by (rewrite seq_length; auto). rewrite seq_nth; auto. Qed.
Lemma length_map2 {A B C} (f : A -> B -> C) l m : length (map2 f l m) = Nat.min (length l) (length m).
Proof. revert m; induction l as [|a l IH]; intros [|b m]; cbn; auto. Qed.
Lemma nth_map2 {A B C} (f : A -> B -> C) l m i d da db : (i < length l)%nat -> (i < length m)%nat ->
  nth i (map2 f l m) d = f (nth i l da) (nth i m db).
Proof.
  revert m i; induction l as [|a l IH]; intros [|b m] [|i] H1 H2; cbn in *; try lia; [reflexivity|].
  apply IH; lia.
Qed.
Lemma nth_repeat_in {A} (a : A) n i d : (i < n)%nat -> nth i (repeat a n) d = a.
Proof. revert i; induction n; intros [|i] H; cbn; try lia; auto. apply IHn; lia. Qed.
Lemma nth_repeat_each {A} n (l : list A) k i d : (k < length l)%nat -> (i < n)%nat ->
  nth (k * n + i) (repeat_each n l) d = nth k l d.
Proof.
  intros Hk Hi. unfold repeat_each. rewrite (nth_flat_map_const (fun a => repeat a n) n l d d); auto.
  - apply nth_repeat_in; auto.
  - intros; apply repeat_length.
Qed.
Lemma length_repeat_each {A} n (l : list A) : length (repeat_each n l) = (length l * n)%nat.
Proof. unfold repeat_each. apply length_flat_map_const. intros; apply repeat_length. Qed.
Lemma list_eq_nth {A} (l m : list A) d : length l = length m -> (forall i, (i < length l)%nat -> nth i l d = nth i m d) -> l = m.
Proof. intros. apply (nth_ext l m d d); auto. Qed.

Lemma length_vec n f : length (vec n f) = n.
Proof. unfold vec. rewrite map_length, seq_length. reflexivity. Qed.
Lemma nth_vec n f i d : (i < n)%nat -> nth i (vec n f) d = f i.
Proof. apply nth_map_seq. Qed.

(** ** column-major vectors *)
Lemma length_mvec (m : mat Rnum) : length (mvec m) = (nc m * nr m)%nat.
Proof. unfold mvec. apply length_flat_map_seq. intros. unfold mcol. rewrite map_length, seq_length. reflexivity. Qed.
Lemma nth_mvec (m : mat Rnum) i j : (i < nr m)%nat -> (j < nc m)%nat -> nth (j * nr m + i) (mvec m) 0 = mget m i j.
Proof.
  intros Hi Hj. unfold mvec. rewrite (nth_flat_map_seq (mcol m) (nr m) (nc m) 0 j i); auto.
  - unfold mcol. apply (nth_map_seq (fun i => mget m i j)). auto.
  - intros. unfold mcol. rewrite map_length, seq_length. reflexivity.
Qed.

Lemma nth_mvec_n (m : mat Rnum) n i j : nr m = n -> (i < n)%nat -> (j < nc m)%nat -> nth (j * n + i) (mvec m) 0 = mget m i j.
Proof. intros <-. apply nth_mvec. Qed.

(** ** block-diagonal products *)
Lemma Rsum_blocks n m (f : nat -> R) : Rsum (m * n) f = Rsum m (fun k => Rsum n (fun j => f (k * n + j)%nat)).
Proof.
  induction m as [|m IH]; [reflexivity|]. cbn [Rsum]. replace (S m * n)%nat with (m * n + n)%nat by lia.
  rewrite Rsum_app, IH. reflexivity.
Qed.
Lemma block_mvmul n (D M : mat Rnum) : (1 <= n)%nat -> nc D = nr M -> nc M = n ->
  exists l, mvmul (block_diag n D) (mvec M) = Ok l /\ length l = (n * nr D)%nat /\
    forall s r, (s < n)%nat -> (r < nr D)%nat ->
      nth (s * nr D + r) l 0 = row_dot D r (fun i => mget M i s).
Proof.
  intros Hn Hd Hm. unfold block_diag. destruct (Nat.ltb_spec 1 n) as [H1|H1].
  - unfold mvmul. cbn [nc kron eye]. rewrite length_mvec, Hm, Hd, Nat.eqb_refl.
    eexists. split; [reflexivity|]. split; [rewrite map_length, seq_length; reflexivity|].
    intros s r Hs Hr. cbn [nr kron eye].
    rewrite (nth_map_seq (fun i : nat => sumf (n * nr M)
      (fun k => nmul (mget (kron (eye n) D) i k) (nth k (mvec M) n0)))) by nia.
    rewrite sumf_R. rewrite Rsum_blocks.
    rewrite (Rsum_single n _ s Hs).
    + unfold row_dot. rewrite Hd. apply Rsum_ext. intros k Hk.
      cbn [kron mget eye]. rewrite Hd.
      replace ((s * nr D + r) / nr D)%nat with s by (symmetry; rewrite Nat.div_add_l by lia; rewrite Nat.div_small by lia; lia).
      replace ((s * nr M + k) / nr M)%nat with s by (symmetry; rewrite Nat.div_add_l by lia; rewrite Nat.div_small by lia; lia).
      rewrite (Nat.add_comm (s * nr D)), Nat.mod_add, Nat.mod_small by lia.
      rewrite (Nat.add_comm (s * nr M) k), Nat.mod_add, Nat.mod_small by lia.
      rewrite (Nat.add_comm k). nred. rewrite nth_mvec by lia. rewrite Nat.eqb_refl. lra.
    + intros s' Hs' Hne. apply Rsum_0. intros k Hk. cbn [kron mget eye]. rewrite Hd.
      replace ((s * nr D + r) / nr D)%nat with s by (symmetry; rewrite Nat.div_add_l by lia; rewrite Nat.div_small by lia; lia).
      replace ((s' * nr M + k) / nr M)%nat with s' by (symmetry; rewrite Nat.div_add_l by lia; rewrite Nat.div_small by lia; lia).
      destruct (Nat.eqb_spec s s'); [congruence|]. nred. lra.
  - assert (En : n = 1%nat) by lia. rewrite En in *. unfold mvmul. rewrite length_mvec, Hm, Hd.
    replace (1 * nr M)%nat with (nr M) by lia. rewrite Nat.eqb_refl.
    eexists. split; [reflexivity|]. split; [rewrite map_length, seq_length; lia|].
    intros s r Hs Hr. assert (s = 0)%nat by lia. subst s. cbn [Nat.mul Nat.add].
    rewrite (nth_map_seq (fun i : nat => sumf (nr M) (fun k => nmul (mget D i k) (nth k (mvec M) n0)))) by auto.
    rewrite sumf_R. unfold row_dot. rewrite Hd. apply Rsum_ext. intros k Hk. nred.
    f_equal. pose proof (nth_mvec M k 0 Hk ltac:(lia)) as E. cbn [Nat.mul Nat.add] in E. exact E.
Qed.
Lemma row_dot_scal (D : mat Rnum) i f c : row_dot D i (fun k => c * f k) = c * row_dot D i f.
Proof. unfold row_dot. rewrite <- Rsum_scal. apply Rsum_ext. intros; lra. Qed.
Lemma row_dot_ext (D : mat Rnum) i f g : (forall k, (k < nc D)%nat -> f k = g k) -> row_dot D i f = row_dot D i g.
Proof. intros H. unfold row_dot. apply Rsum_ext. intros k Hk. rewrite H; auto. Qed.

(** ** constraint blocks *)
Lemma balanced_nil : balanced (con_nil (N := Rnum)).
Proof. split; reflexivity. Qed.
Lemma sat_nil : sat (con_nil (N := Rnum)).
Proof. intros i Hi. cbn in Hi. lia. Qed.
Lemma balanced_app (a b : con Rnum) : balanced a -> balanced b -> balanced (con_app a b).
Proof. intros [A1 A2] [B1 B2]. unfold balanced, con_app. cbn. rewrite !app_length. nred. lia. Qed.
Lemma sat_app (a b : con Rnum) : balanced a -> (sat (con_app a b) <-> sat a /\ sat b).
Proof.
  intros [A1 A2]. unfold sat, con_app. cbn [c_g c_lo c_hi]. nred. split.
  - intros H. split; intros i Hi.
    + specialize (H i). rewrite app_length in H. specialize (H ltac:(lia)).
      rewrite !app_nth1 in H by lia. exact H.
    + specialize (H (length (c_g a) + i)%nat). nred. rewrite app_length in H. specialize (H ltac:(lia)).
      rewrite !app_nth2 in H by lia. rewrite A1, A2 in H.
      rewrite Nat.add_comm, Nat.add_sub in H. exact H.
  - intros [Ha Hb] i Hi. rewrite app_length in Hi.
    destruct (Nat.lt_ge_cases i (length (c_g a))); nred.
    + rewrite !app_nth1 by lia. apply Ha; auto.
    + rewrite !app_nth2 by lia. rewrite A1, A2. apply Hb. lia.
Qed.
Lemma balanced_concat (l : list (con Rnum)) : (forall c, In c l -> balanced c) -> balanced (con_concat l).
Proof.
  induction l as [|c l IH]; intros H; [apply balanced_nil|]. cbn [con_concat fold_right].
  apply balanced_app; [apply H; left; auto|apply IH; intros; apply H; right; auto].
Qed.
Lemma sat_concat (l : list (con Rnum)) : (forall c, In c l -> balanced c) ->
  (sat (con_concat l) <-> forall c, In c l -> sat c).
Proof.
  induction l as [|c l IH]; intros H.
  - split; [intros _ c []|intros _; apply sat_nil].
  - cbn [con_concat fold_right]. rewrite sat_app by (apply H; left; auto).
    fold (con_concat l). rewrite IH by (intros; apply H; right; auto). split.
    + intros [Hc Hl] c' [<-|Hin]; auto.
    + intros Hs. split; [apply Hs; left; auto|intros c' Hc'; apply Hs; right; auto].
Qed.
Lemma length_con_concat (l : list (con Rnum)) :
  length (c_g (con_concat l)) = fold_right Nat.add 0%nat (map (fun c => length (c_g c)) l).
Proof. induction l as [|c l IH]; [reflexivity|]. cbn [con_concat fold_right map]. rewrite <- IH. cbn [con_app c_g]. apply app_length. Qed.
Lemma balanced_const g lo hi : balanced (con_const (N := Rnum) g lo hi).
Proof. unfold con_const, balanced. cbn. rewrite !repeat_length. auto. Qed.
Lemma sat_const (g : list R) lo hi : sat (con_const (N := Rnum) g lo hi) <->
  forall i, (i < length g)%nat -> within lo hi (nth i g 0).
Proof.
  unfold sat, con_const. cbn [c_g c_lo c_hi]. nred. split; intros H i Hi; specialize (H i Hi);
    rewrite ?nth_repeat_in in * by auto; auto.
Qed.
Lemma sat_const_in (g : list R) lo hi : sat (con_const (N := Rnum) g lo hi) <->
  forall x, In x g -> within lo hi x.
Proof.
  rewrite sat_const. split.
  - intros H x Hx. destruct (In_nth g x 0 Hx) as (i & Hi & <-). auto.
  - intros H i Hi. apply H, nth_In; auto.
Qed.
Lemma within_00 x : within (Fin 0) (Fin 0) x <-> x = 0.
Proof. unfold within; cbn. lra. Qed.

(** scaling of bounds *)
Lemma within_scale lo hi s x : 0 < s -> (within (escale (N := Rnum) lo s) (escale (N := Rnum) hi s) (s * x) <-> within lo hi x).
Proof.
  intros Hs. unfold within, escale. nred.
  assert (E1 : Rltb 0 s = true) by (apply Rltb_true; auto).
  destruct lo, hi; cbn [above below]; rewrite ?E1; cbn [above below]; intuition nra.
Qed.
Lemma within_fin a x s : 0 < s -> (within (Fin (a * s)) (Fin (a * s)) (s * x) <-> x = a).
Proof. intros. unfold within; cbn. split; intros; [|subst]; nra. Qed.
