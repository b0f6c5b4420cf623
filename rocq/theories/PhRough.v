(** Residuals, orders and smoothness that the ph refinement goes by (proofs for C41). *)
From Coq Require Import Reals Lia Lra Bool Arith String.
From Coq Require Import List.
From Verif Require Import Num PyList Mat Colloc Ocp Transcribe Solve Hadapt Resid Ph Spec SpecOcp SpecHadapt SpecPh NumR ListR HadaptR.
Import ListNotations.
Open Scope R_scope.

Lemma max_some (l : list R) m : max_ (N := Rnum) l = Ok m -> (forall x, In x l -> x <= m) /\ In m l.
Proof.
  intros E. destruct l as [|a l]; [discriminate E|]. destruct (max_spec (a :: l)) as (v & Ev & Hv); [discriminate|].
  assert (v = m) as <- by (pose proof (eq_trans (eq_sym Ev) E) as X; injection X as X; exact X). exact Hv.
Qed.
Lemma any_true l : any l = true <-> In true l.
Proof. unfold any. rewrite existsb_exists. split; [intros (b & H & ->); exact H|intros H; exists true; auto]. Qed.
Lemma seq_choice (P : nat -> R -> Prop) n : (forall j, (j < n)%nat -> exists m, P j m) -> exists m, forall j, (j < n)%nat -> P j (m j).
Proof.
  induction n as [|n IH]; intros H; [exists (fun _ => 0); intros; lia|]. destruct IH as (m & Hm); [intros; apply H; lia|]. destruct (H n ltac:(lia)) as (v & Hv).
  exists (fun j => if Nat.eqb j n then v else m j). intros j Hj. destruct (Nat.eqb_spec j n) as [->|]; [exact Hv|]. apply Hm. lia.
Qed.
Theorem rough_thm (pc : phcfg (N := Rnum)) nx (new old : segdd (N := Rnum)) : sd_x old <> [] ->
  exists (m : nat -> R) b, rough pc nx (Some new) (Some old) = Ok b /\
    (forall j, (j < nx)%nat -> (forall row, In row (sd_x old) -> Rabs (nth j row 0) <= m j) /\ exists row, In row (sd_x old) /\ m j = Rabs (nth j row 0)) /\
    (b = true <-> exists j row, (j < nx)%nat /\ In row (sd_x new) /\ ph_smooth pc < Rabs (nth j row 0) / m j).
Proof.
  intros Ho. assert (HM : forall j, exists m, max_ (N := Rnum) (map (fun row => nabs (N := Rnum) (nth j row 0)) (sd_x old)) = Ok m /\
     (forall row, In row (sd_x old) -> Rabs (nth j row 0) <= m) /\ exists row, In row (sd_x old) /\ m = Rabs (nth j row 0)).
  { intros j. destruct (max_spec (map (fun row => nabs (N := Rnum) (nth j row 0)) (sd_x old))) as (v & Ev & Hv & Hi); [destruct (sd_x old); [congruence|discriminate]|].
    exists v. split; [exact Ev|]. split.
    - intros row Hr. rewrite <- nabs_R. apply Hv. apply in_map_iff. exists row. auto.
    - apply in_map_iff in Hi. destruct Hi as (row & <- & Hr). exists row. split; [exact Hr|]. apply nabs_R. }
  destruct (seq_choice (fun j m => max_ (N := Rnum) (map (fun row => nabs (N := Rnum) (nth j row 0)) (sd_x old)) = Ok m /\
     (forall row, In row (sd_x old) -> Rabs (nth j row 0) <= m) /\ exists row, In row (sd_x old) /\ m = Rabs (nth j row 0)) nx (fun j _ => HM j)) as (m & Hm).
  exists m. set (B := fun j => any (map (fun row => nltb (n := Rnum) (ph_smooth pc) (ndiv (n := Rnum) (nabs (N := Rnum) (nth j row 0)) (m j))) (sd_x new))).
  exists (any (map B (seq 0 nx))). split; [|split; [intros j Hj; apply Hm; exact Hj|]].
  - unfold rough. rewrite (mapM_ok _ B); [reflexivity|]. intros j Hj. apply in_seq in Hj. destruct (Hm j ltac:(lia)) as (E & _). nred. rewrite E. reflexivity.
  - rewrite any_true, in_map_iff. split.
    + intros (j & E & Hj). apply in_seq in Hj. unfold B in E. apply any_true, in_map_iff in E. destruct E as (row & E & Hr). exists j, row. split; [lia|]. split; [exact Hr|].
      rewrite nabs_R in E. apply Rltb_true in E. exact E.
    + intros (j & row & Hj & Hr & L). exists j. split; [|apply in_seq; lia]. unfold B. apply any_true, in_map_iff. exists row. split; [|exact Hr]. rewrite nabs_R. apply Rltb_true. exact L.
Qed.
Theorem residual_thm nx (s : segstate (N := Rnum)) : (0 < nx)%nat -> ss_r s <> [] ->
  exists m, seg_residual (N := Rnum) nx (Some s) = Ok m /\ (forall row j, In row (ss_r s) -> (j < nx)%nat -> Rabs (nth j row 0) <= m) /\
    exists row j, In row (ss_r s) /\ (j < nx)%nat /\ m = Rabs (nth j row 0).
Proof.
  intros Hn Hs. assert (HM : forall j, exists m, max_ (N := Rnum) (map (fun row => nabs (N := Rnum) (nth j row 0)) (ss_r s)) = Ok m /\
     (forall row, In row (ss_r s) -> Rabs (nth j row 0) <= m) /\ exists row, In row (ss_r s) /\ m = Rabs (nth j row 0)).
  { intros j. destruct (max_spec (map (fun row => nabs (N := Rnum) (nth j row 0)) (ss_r s))) as (v & Ev & Hv & Hi); [destruct (ss_r s); [congruence|discriminate]|].
    exists v. split; [exact Ev|]. split.
    - intros row Hr. rewrite <- nabs_R. apply Hv. apply in_map_iff. exists row. auto.
    - apply in_map_iff in Hi. destruct Hi as (row & <- & Hr). exists row. split; [exact Hr|]. apply nabs_R. }
  destruct (seq_choice (fun j m => max_ (N := Rnum) (map (fun row => nabs (N := Rnum) (nth j row 0)) (ss_r s)) = Ok m /\
     (forall row, In row (ss_r s) -> Rabs (nth j row 0) <= m) /\ exists row, In row (ss_r s) /\ m = Rabs (nth j row 0)) nx (fun j _ => HM j)) as (m & Hm).
  destruct (max_spec (map m (seq 0 nx))) as (v & Ev & Hv & Hi); [destruct nx; [lia|discriminate]|]. exists v. split; [|split].
  - unfold seg_residual. rewrite (mapM_ok _ m); [exact Ev|]. intros j Hj. apply in_seq in Hj. exact (proj1 (Hm j ltac:(lia))).
  - intros row j Hr Hj. eapply Rle_trans; [apply (Hm j Hj); exact Hr|]. apply Hv. apply in_map_iff. exists j. split; [reflexivity|]. apply in_seq. lia.
  - apply in_map_iff in Hi. destruct Hi as (j & <- & Hj). apply in_seq in Hj. destruct (Hm j ltac:(lia)) as (_ & _ & row & Hr & E). exists row, j. split; [exact Hr|]. split; [lia|exact E].
Qed.
Definition raise_by (orders : list nat) (st : list bool) : list nat := map (fun '(p, b) => (p + 3 * Nat.b2n b)%nat) (combine orders st).
Theorem raised_thm orders sts : 
  ((forall st, In st sts -> ~ In true st) -> raise_orders orders sts = orders) /\
  forall pre st post, sts = pre ++ st :: post -> In true st -> (forall st', In st' post -> ~ In true st') -> length st = length orders ->
    length (raise_orders orders sts) = length orders /\
    forall i p b, nth_error orders i = Some p -> nth_error st i = Some b -> nth_error (raise_orders orders sts) i = Some (if b then p + 3 else p)%nat.
Proof.
  assert (Q : forall l acc, (forall st, In st l -> ~ In true st) -> fold_left (fun acc st => if any st then raise_by orders st else acc) l acc = acc).
  { induction l as [|st l IH]; intros acc H; [reflexivity|]. cbn [fold_left]. destruct (any st) eqn:E; [apply any_true in E; destruct (H st (or_introl eq_refl) E)|]. apply IH. intros; apply H; right; assumption. }
  split; [intros H; exact (Q sts orders H)|]. intros pre st post -> Hst Hpost L.
  assert (E : raise_orders orders (pre ++ st :: post) = raise_by orders st).
  { unfold raise_orders. rewrite fold_left_app. cbn [fold_left]. rewrite (proj2 (any_true st) Hst). exact (Q post _ Hpost). }
  rewrite E. unfold raise_by. split; [rewrite map_length, combine_length; lia|]. clear. intros i. revert orders st. induction i as [|i IH]; intros [|q orders] [|c st] p b Hp Hb; try discriminate.
  - cbn in *. injection Hp as ->. injection Hb as ->. f_equal. destruct b; cbn; lia.
  - cbn [combine map nth_error] in *. apply IH; assumption.
Qed.
