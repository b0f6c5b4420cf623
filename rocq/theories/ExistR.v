(** Limits of feasible points; programs with continuous functions and finite bounds have solutions (proofs of C71). *)
From Coq Require Import Reals Lia Lra Bool Arith String ClassicalEpsilon Classical.
From Coquelicot Require Import Coquelicot.
From Coq Require Import List.
From Verif Require Import Num PyList Mat Poly Roots Colloc Ocp Transcribe Spec SpecOcp SpecCoord SpecExist NumR ListR PolyR CompR CollocR MeshR DiscR NlpR NlpThm CostR ScaleR ConvexR TransR CoordR.
Import ListNotations.
Open Scope R_scope.

(** ** limits *)
Lemma lim_ext (u v : nat -> R) (l : R) : (forall k, u k = v k) -> is_lim_seq u l -> is_lim_seq v l.
Proof. intros H. apply is_lim_seq_ext. exact H. Qed.
Lemma lim_Rsum n (f : nat -> nat -> R) (g : nat -> R) : (forall i, (i < n)%nat -> is_lim_seq (fun k => f k i) (g i)) -> is_lim_seq (fun k => Rsum n (f k)) (Rsum n g).
Proof.
  induction n as [|n IH]; intros H; cbn [Rsum]; [apply is_lim_seq_const|].
  apply (is_lim_seq_plus' (fun k => Rsum n (f k)) (fun k => f k n)); [apply IH; intros i Hi; apply H; lia|apply H; lia].
Qed.
Lemma lim_scal (u : nat -> R) a (l : R) : is_lim_seq u l -> is_lim_seq (fun k => a * u k) (a * l).
Proof. intros H. apply (is_lim_seq_mult' (fun _ => a) u); [apply is_lim_seq_const|exact H]. Qed.
Lemma lim_div (u : nat -> R) a (l : R) : is_lim_seq u l -> is_lim_seq (fun k => u k / a) (l / a).
Proof. intros H. apply (is_lim_seq_mult' u (fun _ => / a)); [exact H|apply is_lim_seq_const]. Qed.
Lemma lim_le (u : nat -> R) (l b : R) : is_lim_seq u l -> (forall k, u k <= b) -> l <= b.
Proof. intros H Hb. exact (is_lim_seq_le u (fun _ => b) l b Hb H (is_lim_seq_const b)). Qed.
Lemma lim_ge (u : nat -> R) (l b : R) : is_lim_seq u l -> (forall k, b <= u k) -> b <= l.
Proof. intros H Hb. exact (is_lim_seq_le (fun _ => b) u b l Hb (is_lim_seq_const b) H). Qed.
Lemma lim_eq (u v : nat -> R) (l m : R) : is_lim_seq u l -> is_lim_seq v m -> (forall k, u k = v k) -> l = m.
Proof. intros H1 H2 E. apply (lim_ext _ _ _ E) in H1. apply is_lim_seq_unique in H1. apply is_lim_seq_unique in H2. rewrite H1 in H2. injection H2 as H2. exact H2. Qed.
Lemma lim_within lo hi (u : nat -> R) (l : R) : is_lim_seq u l -> (forall k, within lo hi (u k)) -> within lo hi l.
Proof.
  intros H Hw. split.
  - pose proof (fun k => proj1 (Hw k)) as A. destruct lo; cbn in *; auto; try (exact (A 0%nat)). exact (lim_ge _ _ _ H A).
  - pose proof (fun k => proj2 (Hw k)) as A. destruct hi; cbn in *; auto; try (exact (A 0%nat)). exact (lim_le _ _ _ H A).
Qed.
Lemma subseq_lim (u : nat -> R) (l : R) phi : (forall k, (phi k < phi (S k))%nat) -> is_lim_seq u l -> is_lim_seq (fun k => u (phi k)) l.
Proof. intros Hp H. apply is_lim_seq_subseq; [|exact H]. apply eventually_subseq. exact Hp. Qed.
Lemma mono_comp (phi psi : nat -> nat) : (forall k, (phi k < phi (S k))%nat) -> (forall k, (psi k < psi (S k))%nat) -> forall k, (phi (psi k) < phi (psi (S k)))%nat.
Proof.
  intros Hp Hs k. assert (M : forall n m, (n < m)%nat -> (phi n < phi m)%nat).
  { intros n m H. induction H as [|m H IH]; [apply Hp|]. specialize (Hp m). lia. }
  apply M, Hs.
Qed.

(** ** compactness *)
Lemma bw_one (u : nat -> R) M : (forall k, Rabs (u k) <= M) -> exists (phi : nat -> nat) (l : R), (forall k, (phi k < phi (S k))%nat) /\ is_lim_seq (fun k => u (phi k)) l.
Proof.
  intros HM. destruct (Bolzano_Weierstrass u (fun x => - M <= x <= M) (compact_P3 (- M) M)) as (l & Hl).
  { intros k. specialize (HM k). apply Rabs_le_between in HM. exact HM. }
  assert (Hp : forall kn : nat * nat, exists p, (snd kn <= p)%nat /\ Rabs (u p - l) < / (INR (fst kn) + 1)).
  { intros [k n]. cbn [fst snd]. assert (P : 0 < / (INR k + 1)) by (apply Rinv_0_lt_compat; pose proof (pos_INR k); lra).
    destruct (Hl (fun x => Rabs (x - l) < / (INR k + 1)) n) as (p & A & B); [|exists p; auto].
    exists (mkposreal _ P). intros x Hx. exact Hx. }
  pose (g := fun kn => proj1_sig (constructive_indefinite_description _ (Hp kn))).
  assert (Hg : forall k n, (n <= g (k, n))%nat /\ Rabs (u (g (k, n)) - l) < / (INR k + 1)).
  { intros k n. unfold g. destruct (constructive_indefinite_description _ (Hp (k, n))) as (p & A). exact A. }
  pose (phi := fix phi k := match k with O => g (O, O) | S j => g (S j, S (phi j)) end).
  exists phi, l. split.
  - intros k. cbn [phi]. destruct (Hg (S k) (S (phi k))) as [A _]. lia.
  - assert (C : forall k, Rabs (u (phi k) - l) < / (INR k + 1)) by (intros [|k]; apply Hg).
    apply is_lim_seq_spec. intros eps. destruct (nfloor_ex (/ eps)) as (n & A & B); [left; apply Rinv_0_lt_compat, cond_pos|].
    exists n. intros k Hk. apply Rlt_le_trans with (1 := C k). pose proof (cond_pos eps) as P. rewrite <- (Rinv_inv eps).
    apply Rinv_le_contravar; [apply Rinv_0_lt_compat; exact P|]. apply le_INR in Hk. lra.
Qed.
Lemma bw_many n (v : nat -> nat -> R) : (forall i, (i < n)%nat -> exists M, forall k, Rabs (v i k) <= M) ->
  exists (phi : nat -> nat) (l : nat -> R), (forall k, (phi k < phi (S k))%nat) /\ forall i, (i < n)%nat -> is_lim_seq (fun k => v i (phi k)) (l i).
Proof.
  induction n as [|n IH]; intros H; [exists (fun k => k), (fun _ => 0); split; [intros; lia|intros; lia]|].
  destruct IH as (phi & l & Hp & Hl); [intros i Hi; apply H; lia|]. destruct (H n ltac:(lia)) as (M & HM).
  destruct (bw_one (fun k => v n (phi k)) M (fun k => HM (phi k))) as (psi & m & Hs & Hm).
  exists (fun k => phi (psi k)), (fun i => if Nat.eqb i n then m else l i). split; [apply mono_comp; assumption|].
  intros i Hi. destruct (Nat.eqb_spec i n) as [-> |Hn]; [exact Hm|]. apply (subseq_lim (fun k => v i (phi k))); [exact Hs|]. apply Hl. lia.
Qed.
(** values that in the end are below all values of the set, up to any eps *)
Lemma low_values (E : R -> Prop) x0 : E x0 -> exists e : nat -> R, (forall k, E (e k)) /\ forall x eps, E x -> 0 < eps -> exists n, forall k, (n <= k)%nat -> e k <= x + eps.
Proof.
  intros H0. destruct (classic (exists m, forall x, E x -> m <= x)) as [(m & Hm)|Hn].
  - destruct (completeness (fun y => E (- y))) as (s & Hs1 & Hs2).
    + exists (- m). intros y Hy. specialize (Hm _ Hy). lra.
    + exists (- x0). rewrite Ropp_involutive. exact H0.
    + assert (Hp : forall k : nat, exists x, E x /\ x <= - s + / (INR k + 1)).
      { intros k. apply NNPP. intros Hc. assert (P : 0 < / (INR k + 1)) by (apply Rinv_0_lt_compat; pose proof (pos_INR k); lra).
        specialize (Hs2 (s - / (INR k + 1))). assert (s <= s - / (INR k + 1)); [|lra]. apply Hs2. intros y Hy.
        destruct (Rle_or_lt y (s - / (INR k + 1))) as [A|A]; [exact A|]. exfalso. apply Hc. exists (- y). split; [exact Hy|lra]. }
      exists (fun k => proj1_sig (constructive_indefinite_description _ (Hp k))). split.
      * intros k. destruct (constructive_indefinite_description _ (Hp k)) as (x & A & B). exact A.
      * intros x eps Hx He. destruct (nfloor_ex (/ eps)) as (n & A & B); [left; apply Rinv_0_lt_compat; exact He|]. exists n. intros k Hk.
        destruct (constructive_indefinite_description _ (Hp k)) as (y & C & D). cbn [proj1_sig]. assert (- x <= s) by (apply Hs1; rewrite Ropp_involutive; exact Hx).
        assert (/ (INR k + 1) <= eps); [|lra]. rewrite <- (Rinv_inv eps). apply Rinv_le_contravar; [apply Rinv_0_lt_compat; exact He|]. apply le_INR in Hk. lra.
  - assert (Hp : forall k : nat, exists x, E x /\ x <= - INR k).
    { intros k. apply NNPP. intros Hc. apply Hn. exists (- INR k). intros x Hx. destruct (Rle_or_lt (- INR k) x) as [A|A]; [exact A|]. exfalso. apply Hc. exists x. split; [exact Hx|lra]. }
    exists (fun k => proj1_sig (constructive_indefinite_description _ (Hp k))). split.
    + intros k. destruct (constructive_indefinite_description _ (Hp k)) as (x & A & B). exact A.
    + intros x eps Hx He. destruct (nfloor_ex (Rabs x)) as (n & A & B); [apply Rabs_pos|]. exists (S n). intros k Hk.
      destruct (constructive_indefinite_description _ (Hp k)) as (y & C & D). cbn [proj1_sig]. apply le_INR in Hk. rewrite S_INR in Hk. pose proof (Rabs_maj2 x). lra.
Qed.

(** ** polynomials through converging values *)
Lemma lim_peval roots (v : nat -> nat -> R) (v' : nat -> R) (c : nat -> list R) c' x : NoDup roots -> (forall k, interpolates (c k) roots (v k)) -> interpolates c' roots v' ->
  (forall j, (j < length roots)%nat -> is_lim_seq (fun k => v k j) (v' j)) -> is_lim_seq (fun k => peval (c k) x) (peval c' x).
Proof.
  intros Hn Hc Hc' Hv.
  assert (F : forall c v, interpolates c roots v -> peval c x = Rsum (length roots) (fun j => peval (@lagrange_num Rnum roots j) x * v j)).
  { intros q w [L E]. rewrite (lag_combination roots q Hn L). apply Rsum_ext. intros j Hj. rewrite E by exact Hj. ring. }
  rewrite (F _ _ Hc'). apply (lim_ext (fun k => Rsum (length roots) (fun j => peval (@lagrange_num Rnum roots j) x * v k j))); [intros k; symmetry; apply F, Hc|].
  apply lim_Rsum. intros j Hj. apply lim_scal. exact (Hv j Hj).
Qed.
Lemma lim_slope roots (v : nat -> nat -> R) (v' : nat -> R) (c : nat -> list R) c' x : NoDup roots -> (forall k, interpolates (c k) roots (v k)) -> interpolates c' roots v' ->
  (forall j, (j < length roots)%nat -> is_lim_seq (fun k => v k j) (v' j)) -> is_lim_seq (fun k => Derive (peval (c k)) x) (Derive (peval c') x).
Proof.
  intros Hn Hc Hc' Hv.
  assert (F : forall c v, interpolates c roots v -> Derive (peval c) x = Rsum (length roots) (fun j => Derive (peval (@lagrange_num Rnum roots j)) x * v j)).
  { intros q w [L E]. apply is_derive_unique. apply (is_derive_ext (fun x => Rsum (length roots) (fun j => w j * peval (@lagrange_num Rnum roots j) x))).
    - intros t. rewrite (lag_combination roots q Hn L). apply Rsum_ext. intros j Hj. rewrite E by exact Hj. reflexivity.
    - apply is_derive_Rsum. intros j _. rewrite Rmult_comm. apply (is_derive_scal (peval (@lagrange_num Rnum roots j)) x (w j)). apply Derive_correct, ex_der. }
  rewrite (F _ _ Hc'). apply (lim_ext (fun k => Rsum (length roots) (fun j => Derive (peval (@lagrange_num Rnum roots j)) x * v k j))); [intros k; symmetry; apply F, Hc|].
  apply lim_Rsum. intros j Hj. apply lim_scal. exact (Hv j Hj).
Qed.

(** ** trajectories that converge *)
Definition conv (ys : nat -> utraj) (y : utraj) : Prop :=
  (forall i s, is_lim_seq (fun k => y_x (ys k) i s) (y_x y i s)) /\ (forall i c, is_lim_seq (fun k => y_u (ys k) i c) (y_u y i c)) /\
  is_lim_seq (fun k => y_t0 (ys k)) (y_t0 y) /\ is_lim_seq (fun k => y_tf (ys k)) (y_tf y) /\ (forall i, is_lim_seq (fun k => y_a (ys k) i) (y_a y i)).
Lemma nth_vec n f i : (i < n)%nat -> nth i (vec n f) 0 = f i.
Proof. intros H. unfold vec. rewrite (nth_indep _ 0 (f 0%nat)) by (rewrite map_length, seq_length; exact H). rewrite map_nth, seq_nth by exact H. reflexivity. Qed.
Lemma length_vec n f : length (vec n f) = n.
Proof. unfold vec. rewrite map_length, seq_length. reflexivity. Qed.
Lemma tends_vec n (f : nat -> nat -> R) (g : nat -> R) : (forall i, is_lim_seq (fun k => f k i) (g i)) -> tends n (fun k => vec n (f k)) (vec n g).
Proof.
  intros H. split; [intros k; apply length_vec|]. split; [apply length_vec|]. intros i Hi. rewrite nth_vec by exact Hi.
  apply (lim_ext (fun k => f k i)); [intros k; rewrite nth_vec by exact Hi; reflexivity|apply H].
Qed.
Lemma tends_a o ys y : conv ys y -> tends_arg (o_na o) (fun k => a_of o (ys k)) (a_of o y).
Proof.
  intros (_ & _ & _ & _ & H). unfold tends_arg, a_of. destruct (Nat.eqb (o_na o) 0); [split; reflexivity|].
  exists (fun k => vec (o_na o) (y_a (ys k))), (vec (o_na o) (y_a y)). split; [reflexivity|]. split; [reflexivity|]. apply (tends_vec _ (fun k => y_a (ys k))). exact H.
Qed.
Lemma arg_a o y : arg_ok o (a_of o y).
Proof. unfold arg_ok, a_of. destruct (Nat.eqb (o_na o) 0); [reflexivity|]. eexists. split; [reflexivity|]. apply length_vec. Qed.
Lemma total_choice {A} (P : nat -> A -> Prop) : (forall k, exists a, P k a) -> exists f, forall k, P k (f k).
Proof. intros H. exists (fun k => proj1_sig (constructive_indefinite_description _ (H k))). intros k. destruct (constructive_indefinite_description _ (H k)) as (a & Ha). exact Ha. Qed.

Section Lim.
Variables (mp : mpo Rnum) (npath nterm : nat -> option nat) (rs : list (list R)) (ph : nat).
Let o := mp_ocp mp.
Let cf := mp_cf mp.
Let orders := mp_orders mp.
Hypothesis Hok : ocp_ok o npath nterm.
Hypothesis Hcn : continuous_phase o ph.
Hypothesis Hlen : forall k q, nth_error orders k = Some q -> length (nth k rs []) = S q.
Hypothesis Hnd : forall k q, nth_error orders k = Some q -> NoDup (nth k rs []).
Variables (ys : nat -> utraj) (y : utraj) (ws : nat -> nat -> R) (w : nat -> R).
Hypothesis Hy : conv ys y.
Hypothesis Hw : forall k, is_lim_seq (fun n => ws n k) (w k).
Lemma lim_h k : is_lim_seq (fun n => seg_h cf (ws n) (ys n) k) (seg_h cf w y k).
Proof using Hy Hw.
  destruct Hy as (_ & _ & H0 & Hf & _). unfold seg_h. apply lim_div. apply is_lim_seq_mult'; [|apply Hw]. apply is_lim_seq_minus'; assumption.
Qed.
Lemma lim_time k tau : is_lim_seq (fun n => seg_time cf (ws n) (ys n) k tau) (seg_time cf w y k tau).
Proof using Hy Hw.
  destruct Hy as (_ & _ & H0 & Hf & _). unfold seg_time, seg_start. apply is_lim_seq_plus'.
  - apply is_lim_seq_plus'; [exact H0|]. apply is_lim_seq_mult'; [apply is_lim_seq_minus'; assumption|]. apply lim_Rsum. intros i _. apply Hw.
  - apply is_lim_seq_mult'; [apply lim_h|apply is_lim_seq_const].
Qed.
Lemma lim_dyn i t t' s : is_lim_seq t (Finite t') -> is_lim_seq (fun n => nth s (dyn_val o ph (ys n) i (t n)) 0) (nth s (dyn_val o ph y i t') 0).
Proof using Hok Hcn Hy.
  intros Ht. unfold dyn_val. destruct (nth_error (o_dyn o) ph) as [f|] eqn:Ef; [|destruct s; apply is_lim_seq_const].
  assert (X : forall y t, exists d, f (vec (o_nx o) (y_x y i)) (vec (o_nu o) (y_u y i)) t (a_of o y) = Ok d).
  { intros y0 t0. destruct (ok_dyn _ _ _ Hok ph f (vec (o_nx o) (y_x y0 i)) (vec (o_nu o) (y_u y0 i)) t0 (a_of o y0) Ef (length_vec _ _) (length_vec _ _) (arg_a o y0)) as (d & E & _). exists d. exact E. }
  destruct (X y t') as (d' & E'). destruct (total_choice _ (fun n => X (ys n) (t n))) as (d & E). rewrite E'.
  apply (lim_ext (fun n => nth s (d n) 0)); [intros n; rewrite (E n); reflexivity|]. destruct Hy as (Hx & Hu & _).
  refine (cn_dyn _ _ Hcn f _ _ t _ d _ _ t' _ d' Ef _ _ Ht (tends_a o ys y Hy) E E' s); [apply (tends_vec _ (fun n => y_x (ys n) i)); apply Hx|apply (tends_vec _ (fun n => y_u (ys n) i)); apply Hu].
Qed.
Lemma lim_run i t t' : is_lim_seq t (Finite t') -> is_lim_seq (fun n => run_val o ph (ys n) i (t n)) (run_val o ph y i t').
Proof using Hok Hcn Hy.
  intros Ht. unfold run_val. destruct (nth_error (o_run o) ph) as [f|] eqn:Ef; [|apply is_lim_seq_const].
  assert (X : forall y t, exists d, f (vec (o_nx o) (y_x y i)) (vec (o_nu o) (y_u y i)) t (a_of o y) = Ok (Some d)).
  { intros y0 t0. exact (ok_run _ _ _ Hok ph f (vec (o_nx o) (y_x y0 i)) (vec (o_nu o) (y_u y0 i)) t0 (a_of o y0) Ef (length_vec _ _) (length_vec _ _) (arg_a o y0)). }
  destruct (X y t') as (d' & E'). destruct (total_choice _ (fun n => X (ys n) (t n))) as (d & E). rewrite E'.
  apply (lim_ext d); [intros n; rewrite (E n); reflexivity|]. destruct Hy as (Hx & Hu & _).
  refine (cn_run _ _ Hcn f _ _ t _ d _ _ t' _ d' Ef _ _ Ht (tends_a o ys y Hy) E E'); [apply (tends_vec _ (fun n => y_x (ys n) i)); apply Hx|apply (tends_vec _ (fun n => y_u (ys n) i)); apply Hu].
Qed.
Lemma lim_mayer l : is_lim_seq (fun n => mayer_val o ph (ys n) l) (mayer_val o ph y l).
Proof using Hok Hcn Hy.
  unfold mayer_val. destruct (nth_error (o_mayer o) ph) as [f|] eqn:Ef; [|apply is_lim_seq_const].
  assert (X : forall y, exists d, f (vec (o_nx o) (y_x y l)) (y_tf y) (vec (o_nx o) (y_x y 0)) (y_t0 y) (a_of o y) = Ok (Some d)).
  { intros y0. exact (ok_mayer _ _ _ Hok ph f (vec (o_nx o) (y_x y0 l)) (y_tf y0) (vec (o_nx o) (y_x y0 0)) (y_t0 y0) (a_of o y0) Ef (length_vec _ _) (length_vec _ _) (arg_a o y0)). }
  destruct (X y) as (d' & E'). destruct (total_choice _ (fun n => X (ys n))) as (d & E). rewrite E'.
  apply (lim_ext d); [intros n; rewrite (E n); reflexivity|]. destruct Hy as (Hx & Hu & H0 & Hf & _).
  refine (cn_mayer _ _ Hcn f _ _ _ _ _ d _ _ _ _ _ d' Ef _ Hf _ H0 (tends_a o ys y Hy) E E'); [apply (tends_vec _ (fun n => y_x (ys n) l)); apply Hx|apply (tends_vec _ (fun n => y_x (ys n) 0%nat)); apply Hx].
Qed.
(** signs of the path constraints and zeros of the terminal ones survive *)
Lemma lim_path i t t' : is_lim_seq t (Finite t') -> (forall n c, In c (path_val o ph (ys n) i (t n)) -> c <= 0) -> forall c, In c (path_val o ph y i t') -> c <= 0.
Proof using Hok Hcn Hy.
  intros Ht H c. unfold path_val in *. destruct (nth_error (o_path o) ph) as [f|] eqn:Ef; [|intros []].
  assert (X : forall y t, match npath ph with None => f (vec (o_nx o) (y_x y i)) (vec (o_nu o) (y_u y i)) t (a_of o y) = Ok None | Some m => exists d, f (vec (o_nx o) (y_x y i)) (vec (o_nu o) (y_u y i)) t (a_of o y) = Ok (Some d) /\ length d = m end).
  { intros y0 t0. exact (ok_path _ _ _ Hok ph f (vec (o_nx o) (y_x y0 i)) (vec (o_nu o) (y_u y0 i)) t0 (a_of o y0) Ef (length_vec _ _) (length_vec _ _) (arg_a o y0)). }
  destruct (npath ph) as [m|]; [|rewrite X; intros []].
  destruct (X y t') as (d' & E' & L'). destruct (total_choice _ (fun n => X (ys n) (t n))) as (d & E). rewrite E'. intros Hc. apply In_nth with (d := 0) in Hc. destruct Hc as (j & Hj & <-).
  apply (lim_le (fun n => nth j (d n) 0)).
  - destruct Hy as (Hx & Hu & _). refine (cn_path _ _ Hcn f _ _ t _ d _ _ t' _ d' Ef _ _ Ht (tends_a o ys y Hy) (fun n => proj1 (E n)) E' j); [apply (tends_vec _ (fun n => y_x (ys n) i)); apply Hx|apply (tends_vec _ (fun n => y_u (ys n) i)); apply Hu].
  - intros n. destruct (E n) as [E1 E2]. apply (H n). rewrite E1. apply nth_In. nred. lia.
Qed.
Lemma lim_term l : (forall n c, In c (term_val o ph (ys n) l) -> c = 0) -> forall c, In c (term_val o ph y l) -> c = 0.
Proof using Hok Hcn Hy.
  intros H c. unfold term_val in *. destruct (nth_error (o_term o) ph) as [f|] eqn:Ef; [|intros []].
  assert (X : forall y, match nterm ph with None => f (vec (o_nx o) (y_x y l)) (y_tf y) (vec (o_nx o) (y_x y 0)) (y_t0 y) (a_of o y) = Ok None | Some m => exists d, f (vec (o_nx o) (y_x y l)) (y_tf y) (vec (o_nx o) (y_x y 0)) (y_t0 y) (a_of o y) = Ok (Some d) /\ length d = m end).
  { intros y0. exact (ok_term _ _ _ Hok ph f (vec (o_nx o) (y_x y0 l)) (y_tf y0) (vec (o_nx o) (y_x y0 0)) (y_t0 y0) (a_of o y0) Ef (length_vec _ _) (length_vec _ _) (arg_a o y0)). }
  destruct (nterm ph) as [m|]; [|rewrite X; intros []].
  destruct (X y) as (d' & E' & L'). destruct (total_choice _ (fun n => X (ys n))) as (d & E). rewrite E'. intros Hc. apply In_nth with (d := 0) in Hc. destruct Hc as (j & Hj & <-).
  apply (lim_eq (fun n => nth j (d n) 0) (fun _ => 0)); [|apply is_lim_seq_const|].
  - destruct Hy as (Hx & Hu & H0 & Hf & _). refine (cn_term _ _ Hcn f _ _ _ _ _ d _ _ _ _ _ d' Ef _ Hf _ H0 (tends_a o ys y Hy) (fun n => proj1 (E n)) E' j); [apply (tends_vec _ (fun n => y_x (ys n) l)); apply Hx|apply (tends_vec _ (fun n => y_x (ys n) 0%nat)); apply Hx].
  - intros n. destruct (E n) as [E1 E2]. apply (H n). rewrite E1. apply nth_In. nred. lia.
Qed.
Lemma lim_bounds : (forall n, bounds_ok mp ph (ys n)) -> bounds_ok mp ph y.
Proof using Hy.
  intros H. destruct Hy as (Hx & Hu & H0 & Hf & Ha). split; [|split; [|split; [|split]]].
  - intros i s Hi Hs. pose proof (fun n => proj1 (H n) i s Hi Hs) as B. cbv beta in B. destruct (Nat.eqb ph 0 && Nat.eqb i 0).
    + exact (lim_eq _ (fun _ => _) _ _ (Hx i s) (is_lim_seq_const _) B).
    + exact (lim_within _ _ _ _ (Hx i s) B).
  - intros i c Hi Hc. exact (lim_within _ _ _ _ (Hu i c) (fun n => proj1 (proj2 (H n)) i c Hi Hc)).
  - exact (lim_within _ _ _ _ H0 (fun n => proj1 (proj2 (proj2 (H n))))).
  - exact (lim_within _ _ _ _ Hf (fun n => proj1 (proj2 (proj2 (proj2 (H n)))))).
  - intros i Hi. exact (lim_within _ _ _ _ (Ha i) (fun n => proj2 (proj2 (proj2 (proj2 (H n)))) i Hi)).
Qed.
(** polynomials of all members of the sequence on one segment *)
Lemma seg_all (v : nat -> nat -> R) k q : nth_error orders k = Some q -> exists c : nat -> list R, forall n, seg_interp orders k (nth k rs []) (v n) (c n).
Proof using Hnd.
  intros Hk. apply (total_choice (fun n c => seg_interp orders k (nth k rs []) (v n) c)). intros n. apply interp_exists. exact (Hnd k q Hk).
Qed.
Lemma seg_slope (v : nat -> nat -> R) (v' : nat -> R) k q c c' x : nth_error orders k = Some q -> (forall i, is_lim_seq (fun n => v n i) (v' i)) ->
  (forall n, seg_interp orders k (nth k rs []) (v n) (c n)) -> seg_interp orders k (nth k rs []) v' c' -> is_lim_seq (fun n => Derive (peval (c n)) x) (Derive (peval c') x).
Proof using Hnd.
  intros Hk Hv Hc Hc'. apply (lim_slope (nth k rs []) (fun n j => v n (offset orders k + j)%nat) (fun j => v' (offset orders k + j)%nat)); auto. exact (Hnd k q Hk).
Qed.
Lemma seg_value (v : nat -> nat -> R) (v' : nat -> R) k q c c' x : nth_error orders k = Some q -> (forall i, is_lim_seq (fun n => v n i) (v' i)) ->
  (forall n, seg_interp orders k (nth k rs []) (v n) (c n)) -> seg_interp orders k (nth k rs []) v' c' -> is_lim_seq (fun n => peval (c n) x) (peval c' x).
Proof using Hnd.
  intros Hk Hv Hc Hc'. apply (lim_peval (nth k rs []) (fun n j => v n (offset orders k + j)%nat) (fun j => v' (offset orders k + j)%nat)); auto. exact (Hnd k q Hk).
Qed.
Lemma lim_phase : (forall n, phase_ok mp rs (ws n) ph (ys n)) -> phase_ok mp rs w ph y.
Proof using Hok Hcn Hlen Hnd Hy Hw.
  intros H. pose proof Hy as (Hx & Hu & _). split; [|split; [|split; [|split; [|split]]]].
  - intros i k j s c Ho Hs Hc. pose proof Ho as (q & Hk & _). destruct (seg_all (fun n i => y_x (ys n) i s) k q Hk) as (cs & Hcs).
    assert (D : Derive (peval c) (nth j (nth k rs []) 0) = seg_h cf w y k * nth s (dyn_val o ph y i (seg_time cf w y k (nth j (nth k rs []) 0))) 0).
    { refine (lim_eq _ _ _ _ (seg_slope _ _ k q cs c _ Hk (fun i => Hx i s) Hcs Hc) (is_lim_seq_mult' _ _ _ _ (lim_h k) (lim_dyn i _ _ s (lim_time k _))) _).
      intros n. apply is_derive_unique. exact (proj1 (H n) i k j s (cs n) Ho Hs (Hcs n)). }
    eapply eq_rect; [apply Derive_correct, ex_der|exact D].
  - intros i k j c Ho Hc. refine (lim_path i _ _ (lim_time k _) _ c Hc). intros n c' Hc'. exact (proj1 (proj2 (H n)) i k j c' Ho Hc').
  - intros Hd i k j c0 c Ho Hq Hc. pose proof Ho as (q & Hk & _). destruct (seg_all (fun n i => y_u (ys n) i c0) k q Hk) as (cs & Hcs).
    refine (lim_within _ _ _ _ (lim_scal _ _ _ (seg_slope _ _ k q cs c _ Hk (fun i => Hu i c0) Hcs Hc)) _).
    intros n. exact (proj1 (proj2 (proj2 (H n))) Hd i k j c0 (cs n) Ho Hq (Hcs n)).
  - intros Hd k p j c0 c Hk Hj Hq Hc. destruct (seg_all (fun n i => y_u (ys n) i c0) k p Hk) as (cs & Hcs).
    refine (lim_within _ _ _ _ (seg_value _ _ k p cs c _ Hk (fun i => Hu i c0) Hcs Hc) _).
    intros n. exact (proj1 (proj2 (proj2 (proj2 (H n)))) Hd k p j c0 (cs n) Hk Hj Hq (Hcs n)).
  - intros Hd k c0 c c' Hk Hq Hc Hc'. assert (K1 : nth_error orders k = Some (nth k orders 0%nat)) by (apply nth_error_nth'; unfold orders; lia).
    assert (K2 : nth_error orders (S k) = Some (nth (S k) orders 0%nat)) by (apply nth_error_nth'; exact Hk).
    destruct (seg_all (fun n i => y_u (ys n) i c0) k _ K1) as (cs & Hcs). destruct (seg_all (fun n i => y_u (ys n) i c0) (S k) _ K2) as (cs' & Hcs').
    refine (lim_eq _ _ _ _ (seg_slope _ _ k _ cs c _ K1 (fun i => Hu i c0) Hcs Hc) (seg_slope _ _ (S k) _ cs' c' _ K2 (fun i => Hu i c0) Hcs' Hc') _).
    intros n. exact (proj1 (proj2 (proj2 (proj2 (proj2 (H n))))) Hd k c0 (cs n) (cs' n) Hk Hq (Hcs n) (Hcs' n)).
  - intros c Hc. exact (lim_term _ (fun n => proj2 (proj2 (proj2 (proj2 (proj2 (H n)))))) c Hc).
Qed.
Lemma lim_cost : is_lim_seq (fun n => node_cost mp rs (ws n) ph (ys n)) (node_cost mp rs w ph y).
Proof using Hok Hcn Hy Hw.
  unfold node_cost. apply is_lim_seq_plus'; [apply lim_mayer|]. apply lim_Rsum. intros k Hk. unfold seg_cost. apply is_lim_seq_mult'; [apply lim_h|].
  apply lim_Rsum. intros j Hj. apply lim_scal. unfold run_at. apply lim_run. apply lim_time.
Qed.
End Lim.

Lemma traj_conv mp zs z ph : points_to zs z -> conv (fun n => user_traj mp (zs n) ph) (user_traj mp z ph).
Proof.
  intros H. unfold user_traj. split; [|split; [|split; [|split]]]; cbn [y_x y_u y_t0 y_tf y_a]; intros; apply lim_div; apply H.
Qed.
Theorem closed_thm (mp : mpo Rnum) npath nterm zs z ps p : (forall k, input_ok mp npath nterm (zs k) (ps k)) -> input_ok mp npath nterm z p ->
  (forall ph, (ph < o_nph (mp_ocp mp))%nat -> continuous_phase (mp_ocp mp) ph) -> points_to zs z -> points_to ps p ->
  exists ns n, (forall k, nlp_at mp (zs k) (ps k) = Ok (ns k)) /\ nlp_at mp z p = Ok n /\
    is_lim_seq (fun k => n_f (ns k)) (n_f n) /\ ((forall k, feasible (ns k)) -> feasible n).
Proof.
  intros Hins Hin Hcn Hz Hp.
  destruct (nlp_like mp _ _ _ _ (user_traj mp z) Hin (fun ph _ => same_refl _ _)) as (rs & n & R1 & R2 & Hlen & R3 & R4).
  assert (X : forall k, exists m, nlp_at mp (zs k) (ps k) = Ok m /\
    (feasible m <-> (forall ph, (ph < o_nph (mp_ocp mp))%nat -> bounds_ok mp ph (user_traj mp (zs k) ph)) /\
       (forall ph, (ph < o_nph (mp_ocp mp))%nat -> phase_ok mp rs (width mp (ps k) ph) ph (user_traj mp (zs k) ph)) /\ links_ok mp (user_traj mp (zs k))) /\
    n_f m = Rsum (o_nph (mp_ocp mp)) (fun ph => node_cost mp rs (width mp (ps k) ph) ph (user_traj mp (zs k) ph))).
  { intros k. destruct (nlp_like mp _ _ _ _ (user_traj mp (zs k)) (Hins k) (fun ph _ => same_refl _ _)) as (rs' & m & R1' & R2' & _ & R3' & R4').
    assert (rs' = rs) as -> by (pose proof (eq_trans (eq_sym R1') R1) as Y; injection Y as Y; exact Y). exists m. auto. }
  destruct (total_choice _ X) as (ns & Hns). exists ns, n. split; [intros k; apply Hns|]. split; [exact R2|].
  assert (Hnd : forall k q, nth_error (mp_orders mp) k = Some q -> NoDup (nth k rs [])).
  { intros k q Hk. pose proof (in_mpo _ _ _ _ _ Hin) as Hm. destruct (mapM_inv _ _ _ R1) as [_ HI]. destruct (HI k q Hk) as (r & E2 & E3). rewrite (nth_error_nth _ _ _ E2).
    destruct (c_roots_good (mp_cf mp) q (mo_cfg _ Hm)) as (r' & E4 & G); [apply (mo_pos _ Hm); exact (nth_error_In _ _ Hk)|]. assert (r' = r) as -> by (pose proof (eq_trans (eq_sym E4) E3) as Y; injection Y as Y; exact Y). exact (good_nodup _ _ _ _ G). }
  pose proof (in_ocp _ _ _ _ _ Hin) as Hok. assert (Hw : forall ph k, is_lim_seq (fun j => width mp (ps j) ph k) (width mp p ph k)) by (intros ph k; apply Hp).
  split.
  - apply (eq_ind_r (fun v : R => is_lim_seq (fun k => n_f (ns k)) v)) with (2 := R4).
    apply (lim_ext (fun k => Rsum (o_nph (mp_ocp mp)) (fun ph => node_cost mp rs (width mp (ps k) ph) ph (user_traj mp (zs k) ph)))); [intros k; symmetry; exact (proj2 (proj2 (Hns k)))|].
    apply lim_Rsum. intros ph Hph. exact (lim_cost mp npath nterm rs ph Hok (Hcn ph Hph) _ _ _ _ (traj_conv mp zs z ph Hz) (Hw ph)).
  - intros Hf. apply R3. assert (F : forall k, (forall ph, (ph < o_nph (mp_ocp mp))%nat -> bounds_ok mp ph (user_traj mp (zs k) ph)) /\
       (forall ph, (ph < o_nph (mp_ocp mp))%nat -> phase_ok mp rs (width mp (ps k) ph) ph (user_traj mp (zs k) ph)) /\ links_ok mp (user_traj mp (zs k))) by (intros k; apply Hns; apply Hf).
    split; [|split].
    + intros ph Hph. exact (lim_bounds mp ph _ _ (traj_conv mp zs z ph Hz) (fun k => proj1 (F k) ph Hph)).
    + intros ph Hph. exact (lim_phase mp npath nterm rs ph Hok (Hcn ph Hph) Hlen Hnd _ _ _ _ (traj_conv mp zs z ph Hz) (Hw ph) (fun k => proj1 (proj2 (F k)) ph Hph)).
    + intros H1 k i j Hk. pose proof (fun m => proj2 (proj2 (F m)) H1 k i j Hk) as L. pose proof (traj_conv mp zs z i Hz) as (Cx & Cu & _ & Cf & _). pose proof (traj_conv mp zs z j Hz) as (Dx & Du & D0 & _).
      split; [|split].
      * intros s Hs. exact (lim_within _ _ _ _ (is_lim_seq_minus' _ _ _ _ (Dx 0%nat s) (Cx _ s)) (fun m => proj1 (L m) s Hs)).
      * intros c Hc. exact (lim_eq _ _ _ _ (Du 0%nat c) (Cu _ c) (fun m => proj1 (proj2 (L m)) c Hc)).
      * exact (lim_eq _ _ _ _ D0 Cf (fun m => proj2 (proj2 (L m)))).
Qed.

(** ** feasible points of problems with finite bounds *)
Lemma finite_within lo hi : finite_bounds lo hi -> exists M, forall x, within lo hi x -> Rabs x <= M.
Proof.
  intros (a & b & -> & ->). exists (Rmax (Rabs a) (Rabs b)). intros x [A B]. cbn in A, B.
  pose proof (Rmax_l (Rabs a) (Rabs b)). pose proof (Rmax_r (Rabs a) (Rabs b)). unfold Rabs in *. repeat destruct Rcase_abs; lra.
Qed.
Lemma scaled_bound c s (v : nat -> R) M : 0 < s -> (forall k, v k / s = c k) -> (forall k, Rabs (c k) <= M) -> exists M', forall k, Rabs (v k) <= M'.
Proof.
  intros Hs E H. exists (s * M). intros k. replace (v k) with (s * c k) by (rewrite <- E; field; lra). rewrite Rabs_mult, (Rabs_pos_eq s) by lra. apply Rmult_le_compat_l; [lra|apply H].
Qed.
Lemma entry_bounded (mp : mpo Rnum) (zs : nat -> list R) ph r : shapes_ok (mp_ocp mp) -> scales_pos (mp_ocp mp) -> bounded_phase (mp_ocp mp) ph ->
  (r < nvars mp)%nat -> (forall k, bounds_ok mp ph (user_traj mp (zs k) ph)) -> exists M, forall k, Rabs (nth (ph * nvars mp + r) (zs k) 0) <= M.
Proof.
  intros Hsh Hsc Hb Hr Hz. set (o := mp_ocp mp) in *. set (n := total_nodes (mp_orders mp)). assert (Hn : (0 < n)%nat) by (unfold n, total_nodes; lia).
  assert (Er : nvars mp = (n * o_nx o + n * o_nu o + 2 + o_na o)%nat) by reflexivity.
  destruct (lt_dec r (n * o_nx o)) as [R1|R1]; [|destruct (lt_dec r (n * o_nx o + n * o_nu o)) as [R2|R2]; [|destruct (Nat.eq_dec r (n * o_nx o + n * o_nu o)) as [R3|R3]; [|destruct (Nat.eq_dec r (n * o_nx o + n * o_nu o + 1)) as [R4|R4]]]].
  - set (s := (r / n)%nat). set (i := (r mod n)%nat). assert (E : r = (s * n + i)%nat) by (unfold s, i; rewrite (Nat.mul_comm (r / n)); apply Nat.div_mod; lia).
    assert (Hi : (i < n)%nat) by (apply Nat.mod_upper_bound; lia). assert (Hs : (s < o_nx o)%nat) by (apply Nat.div_lt_upper_bound; lia).
    destruct (finite_within _ _ (bp_x _ _ Hb s Hs)) as (M & HM).
    apply (scaled_bound (fun k => y_x (user_traj mp (zs k) ph) i s) (nth s (o_scale_x o) 0) _ (Rmax M (Rabs (nth s (nth 0 (o_x00 o) []) 0)))).
    + apply (sp_x _ Hsc). apply nth_In. pose proof (sh_sx _ Hsh). nred. lia.
    + intros k. cbn [user_traj y_x]. rewrite E, Nat.add_assoc. reflexivity.
    + intros k. pose proof (proj1 (Hz k) i s Hi Hs) as B. destruct (Nat.eqb ph 0 && Nat.eqb i 0).
      * apply Rle_trans with (2 := Rmax_r _ _). right. f_equal. exact B.
      * apply Rle_trans with (2 := Rmax_l _ _). apply HM. exact B.
  - set (q := (r - n * o_nx o)%nat). set (s := (q / n)%nat). set (i := (q mod n)%nat). assert (E : r = (n * o_nx o + s * n + i)%nat).
    { assert (q = (s * n + i)%nat) by (unfold s, i; rewrite (Nat.mul_comm (q / n)); apply Nat.div_mod; lia). unfold q in *. lia. }
    assert (Hi : (i < n)%nat) by (apply Nat.mod_upper_bound; lia). assert (Hs : (s < o_nu o)%nat) by (apply Nat.div_lt_upper_bound; unfold q; lia).
    destruct (finite_within _ _ (bp_u _ _ Hb s Hs)) as (M & HM).
    apply (scaled_bound (fun k => y_u (user_traj mp (zs k) ph) i s) (nth s (o_scale_u o) 0) _ M).
    + apply (sp_u _ Hsc). apply nth_In. pose proof (sh_su _ Hsh). nred. lia.
    + intros k. cbn [user_traj y_u]. rewrite E, !Nat.add_assoc. reflexivity.
    + intros k. apply HM. exact (proj1 (proj2 (Hz k)) i s Hi Hs).
  - destruct (finite_within _ _ (bp_t0 _ _ Hb)) as (M & HM).
    apply (scaled_bound (fun k => y_t0 (user_traj mp (zs k) ph)) (o_scale_t o) _ M); [exact (sp_t _ Hsc)| |intros k; apply HM; exact (proj1 (proj2 (proj2 (Hz k))))].
    intros k. cbn [user_traj y_t0]. rewrite R3, !Nat.add_assoc. reflexivity.
  - destruct (finite_within _ _ (bp_tf _ _ Hb)) as (M & HM).
    apply (scaled_bound (fun k => y_tf (user_traj mp (zs k) ph)) (o_scale_t o) _ M); [exact (sp_t _ Hsc)| |intros k; apply HM; exact (proj1 (proj2 (proj2 (proj2 (Hz k)))))].
    intros k. cbn [user_traj y_tf]. rewrite R4, !Nat.add_assoc. reflexivity.
  - set (i := (r - (n * o_nx o + n * o_nu o + 2))%nat). assert (Hi : (i < o_na o)%nat) by (unfold i; lia). destruct (finite_within _ _ (bp_a _ _ Hb i Hi)) as (M & HM).
    apply (scaled_bound (fun k => y_a (user_traj mp (zs k) ph) i) (nth i (o_scale_a o) 0) _ M).
    + apply (sp_a _ Hsc). apply nth_In. pose proof (sh_sa _ Hsh). nred. lia.
    + intros k. cbn [user_traj y_a]. f_equal. f_equal. unfold i. fold o n. lia.
    + intros k. apply HM. exact (proj2 (proj2 (proj2 (proj2 (Hz k)))) i Hi).
Qed.
(** feasible points for widths that tend to [p]: some of them tend to a feasible point for [p] *)
Theorem compact_thm (mp : mpo Rnum) npath nterm (zs : nat -> list R) ns ps p : (forall k, input_ok mp npath nterm (zs k) (ps k)) -> length p = (o_nph (mp_ocp mp) * mp_nseg mp)%nat ->
  (forall ph, (ph < o_nph (mp_ocp mp))%nat -> continuous_phase (mp_ocp mp) ph) -> (forall ph, (ph < o_nph (mp_ocp mp))%nat -> bounded_phase (mp_ocp mp) ph) -> points_to ps p ->
  (forall k, nlp_at mp (zs k) (ps k) = Ok (ns k)) -> (forall k, feasible (ns k)) ->
  exists (phi : nat -> nat) z n, (forall k, (phi k < phi (S k))%nat) /\ input_ok mp npath nterm z p /\ points_to (fun k => zs (phi k)) z /\
    nlp_at mp z p = Ok n /\ feasible n /\ is_lim_seq (fun k => n_f (ns (phi k))) (n_f n).
Proof.
  intros Hin Hp Hcn Hb Hps En Hf. set (o := mp_ocp mp) in *. set (N := (o_nph o * nvars mp)%nat).
  assert (Hz : forall ph k, (ph < o_nph o)%nat -> bounds_ok mp ph (user_traj mp (zs k) ph)).
  { intros ph k Hph. destruct (nlp_like mp _ _ _ _ (user_traj mp (zs k)) (Hin k) (fun ph _ => same_refl _ _)) as (rs & m & _ & Em & _ & HF & _).
    assert (m = ns k) as -> by (pose proof (eq_trans (eq_sym Em) (En k)) as Y; injection Y as Y; exact Y). exact (proj1 (proj1 HF (Hf k)) ph Hph). }
  pose proof (Hin 0%nat) as [Hm Hok Hsc _ _].
  destruct (bw_many N (fun i k => nth i (zs k) 0)) as (phi & l & Hphi & Hl).
  { intros i Hi. assert (Hv : (0 < nvars mp)%nat) by (unfold nvars; lia). rewrite (Nat.div_mod i (nvars mp)) by lia. rewrite (Nat.mul_comm (nvars mp)).
    assert (Hph : (i / nvars mp < o_nph o)%nat) by (apply Nat.div_lt_upper_bound; [lia|]; unfold N in Hi; rewrite Nat.mul_comm; exact Hi).
    apply entry_bounded; [exact (ok_shapes _ _ _ Hok)|exact Hsc|apply Hb; exact Hph|apply Nat.mod_upper_bound; lia|intros k; apply Hz; exact Hph]. }
  assert (Hiz : input_ok mp npath nterm (vec N l) p) by (constructor; [exact Hm|exact Hok|exact Hsc|apply length_vec|exact Hp]).
  assert (Hpt : points_to (fun k => zs (phi k)) (vec N l)).
  { intros i. destruct (lt_dec i N) as [Hi|Hi].
    - rewrite nth_vec by exact Hi. apply Hl. exact Hi.
    - rewrite nth_overflow by (rewrite length_vec; lia). apply (lim_ext (fun _ => 0)); [|apply is_lim_seq_const]. intros k. symmetry. apply nth_overflow. rewrite (in_z _ _ _ _ _ (Hin (phi k))). fold o N. lia. }
  destruct (closed_thm mp npath nterm (fun k => zs (phi k)) (vec N l) (fun k => ps (phi k)) p (fun k => Hin (phi k)) Hiz Hcn Hpt) as (ms & n & A & B & C & D).
  { intros i. apply (subseq_lim (fun k => nth i (ps k) 0)); [exact Hphi|apply Hps]. }
  assert (Em : forall k, ms k = ns (phi k)) by (intros k; pose proof (eq_trans (eq_sym (A k)) (En (phi k))) as Y; injection Y as Y; exact Y).
  exists phi, (vec N l), n. split; [exact Hphi|]. split; [exact Hiz|]. split; [exact Hpt|]. split; [exact B|]. split.
  - apply D. intros k. rewrite Em. apply Hf.
  - apply (lim_ext (fun k => n_f (ms k))); [intros k; rewrite Em; reflexivity|exact C].
Qed.
Theorem exists_thm (mp : mpo Rnum) npath nterm z0 n0 p : input_ok mp npath nterm z0 p -> nlp_at mp z0 p = Ok n0 -> feasible n0 ->
  (forall ph, (ph < o_nph (mp_ocp mp))%nat -> continuous_phase (mp_ocp mp) ph) -> (forall ph, (ph < o_nph (mp_ocp mp))%nat -> bounded_phase (mp_ocp mp) ph) ->
  exists z, input_ok mp npath nterm z p /\ best mp p z.
Proof.
  intros Hin En Hf Hcn Hb.
  pose (E := fun v => exists z n, input_ok mp npath nterm z p /\ nlp_at mp z p = Ok n /\ feasible n /\ n_f n = v).
  destruct (low_values E (n_f n0)) as (e & He & Hlow); [exists z0, n0; auto|].
  assert (X : forall k, exists zn : list R * nlp Rnum, input_ok mp npath nterm (fst zn) p /\ nlp_at mp (fst zn) p = Ok (snd zn) /\ feasible (snd zn) /\ n_f (snd zn) = e k).
  { intros k. destruct (He k) as (z & n & A). exists (z, n). exact A. }
  destruct (total_choice _ X) as (f & Hfz).
  destruct (compact_thm mp npath nterm (fun k => fst (f k)) (fun k => snd (f k)) (fun _ => p) p (fun k => proj1 (Hfz k)) (in_p _ _ _ _ _ Hin) Hcn Hb (fun i => is_lim_seq_const _) (fun k => proj1 (proj2 (Hfz k))) (fun k => proj1 (proj2 (proj2 (Hfz k)))))
    as (phi & z & n & Hphi & Hz & _ & Enz & Fz & Lz).
  exists z. split; [exact Hz|]. exists n. split; [exact Enz|]. split; [exact Fz|]. intros z1 n1 L1 E1 F1.
  assert (I1 : input_ok mp npath nterm z1 p) by (destruct Hz as [A B C D F]; constructor; auto; exact (eq_trans L1 D)).
  assert (Hge : forall k, (k <= phi k)%nat) by (induction k as [|k IH]; [lia|specialize (Hphi k); lia]).
  apply le_epsilon. intros eps Heps. destruct (Hlow (n_f n1) eps) as (m & Hm); [exists z1, n1; auto|exact Heps|].
  apply (lim_le (fun k => n_f (snd (f (phi (k + m)%nat))))).
  - apply (is_lim_seq_incr_n (fun k => n_f (snd (f (phi k)))) m). exact Lz.
  - intros k. rewrite (proj2 (proj2 (proj2 (Hfz (phi (k + m)%nat))))). apply Hm. specialize (Hge (k + m)%nat). lia.
Qed.
