(** Class OCP: what validate accepts (proofs). *)
From Coq Require Import Reals Lia Lra Bool Arith.
From Coquelicot Require Import Coquelicot.
From Coq Require Import List.
From Verif Require Import Num PyList Mat Poly Roots Colloc Ocp Transcribe Spec SpecOcp NumR ListR BlockR.
Import ListNotations.
Open Scope R_scope.

Lemma assert_ok b (k : unit -> res unit) : bind (assert_ b) k = Ok tt -> b = true /\ k tt = Ok tt.
Proof. destruct b; cbn; [auto|discriminate]. Qed.
Lemma shape_spec {T} (m : list (list T)) r c : shape m r c = true <-> shaped m r c.
Proof.
  unfold shape, shaped. rewrite andb_true_iff, Nat.eqb_eq, forallb_forall. split; intros [H1 H2]; (split; [auto|]).
  - intros row Hr. apply Nat.eqb_eq. auto.
  - intros row Hr. apply Nat.eqb_eq. auto.
Qed.
Lemma eleb_spec (a b : ext R) : eleb (N := Rnum) a b = true <-> ext_le a b.
Proof.
  destruct a, b; cbn; try (split; [discriminate|tauto]); try tauto.
  unfold Rleb. destruct (Rle_dec x x0); split; intros; auto; discriminate.
Qed.
Lemma rows_le_spec lo hi ph n : rows_le (N := Rnum) lo hi ph n = true <->
  forall i, (i < n)%nat -> ext_le (nth i (nth ph lo []) NaN) (nth i (nth ph hi []) NaN).
Proof.
  unfold rows_le. rewrite forallb_forall. split; intros H i Hi.
  - apply eleb_spec, H, in_seq. lia.
  - apply in_seq in Hi. apply eleb_spec, H. lia.
Qed.

Lemma validate_sound (o : ocp Rnum) : validate o = Ok tt -> shapes_ok o.
Proof.
  unfold validate. intros H.
  repeat match type of H with
  | bind (assert_ _) _ = Ok tt => let H1 := fresh "A" in apply assert_ok in H; destruct H as [H1 H]
  | bind (mapM _ _) _ = Ok tt => destruct (mapM _ _) as [us|e]; [cbn [bind] in H|discriminate]
  end.
  match type of H with assert_ ?b = _ => destruct b eqn:B; [clear H|discriminate] end.
  rewrite forallb_forall in B.
  assert (B' : forall ph, (ph < o_nph o)%nat -> 
    rows_le (o_lbx o) (o_ubx o) ph (o_nx o) = true /\ rows_le (o_lbu o) (o_ubu o) ph (o_nu o) = true /\
    rows_le (o_lba o) (o_uba o) ph (o_na o) = true /\ rows_le (o_lbt0 o) (o_ubt0 o) ph 1 = true /\
    rows_le (o_lbtf o) (o_ubtf o) ph 1 = true /\
    (if Nat.ltb ph (o_nph o - 1) then rows_le (o_lbe o) (o_ube o) ph (o_nx o) else true) = true).
  { intros ph Hph. specialize (B ph). rewrite in_seq in B. specialize (B ltac:(lia)). rewrite !andb_true_iff in B. tauto. }
  repeat match goal with
  | A : Nat.eqb _ _ = true |- _ => apply Nat.eqb_eq in A
  | A : shape _ _ _ = true |- _ => apply shape_spec in A
  end.
  constructor; auto.
  - match goal with A : Nat.ltb 0 _ = true |- _ => apply Nat.ltb_lt in A; lia end.
  - split; [auto|]. intros Hn. apply Nat.ltb_lt in Hn. 
    match goal with A : (if _ then shape (o_lbe o) _ _ else _) = true |- _ => rewrite Hn in A; apply shape_spec in A; exact A end.
  - split; [auto|]. intros Hn. apply Nat.ltb_lt in Hn. 
    match goal with A : (if _ then shape (o_ube o) _ _ else _) = true |- _ => rewrite Hn in A; apply shape_spec in A; exact A end.
  - intros i j Hi Hj. destruct (B' i Hi) as (H & _). rewrite rows_le_spec in H. auto.
  - intros i j Hi Hj. destruct (B' i Hi) as (_ & H & _). rewrite rows_le_spec in H. auto.
  - intros i j Hi Hj. destruct (B' i Hi) as (_ & _ & H & _). rewrite rows_le_spec in H. auto.
  - intros i j Hi Hj. destruct (B' i Hi) as (_ & _ & _ & H & _). rewrite rows_le_spec in H. auto.
  - intros i j Hi Hj. destruct (B' i Hi) as (_ & _ & _ & _ & H & _). rewrite rows_le_spec in H. auto.
  - intros i j Hi Hj. destruct (B' i ltac:(lia)) as (_ & _ & _ & _ & _ & H).
    assert (Hl : Nat.ltb i (o_nph o - 1) = true) by (apply Nat.ltb_lt; lia). rewrite Hl, rows_le_spec in H. auto.
Qed.

Lemma validate_phase_aux (nx : nat) (fd : dyn_fn (N := Rnum)) (fm : mayer_fn (N := Rnum)) (fr : run_fn (N := Rnum))
    (fp : path_fn (N := Rnum)) (ft : term_fn (N := Rnum)) (x u : list R) (t : R) (a : option (list R)) :
  (d <- fd x u t a ;; _ <- assert_ (Nat.eqb (length d) nx) ;;
   tc <- fm x t x t a ;; _ <- assert_ (is_some tc) ;;
   rc <- fr x u t a ;; _ <- assert_ (is_some rc) ;;
   pc <- fp x u t a ;;
   ct <- ft x t x t a ;;
   _ <- (match pc with Some l => assert_ (Nat.ltb 0 (length l)) | None => Ok tt end) ;;
   match ct with Some l => assert_ (Nat.ltb 0 (length l)) | None => Ok tt end) = Ok tt <->
  (exists f d, Some fd = Some f /\ f x u t a = Ok d /\ length d = nx) /\
  (exists f c, Some fm = Some f /\ f x t x t a = Ok (Some c)) /\
  (exists f c, Some fr = Some f /\ f x u t a = Ok (Some c)) /\
  (exists f r, Some fp = Some f /\ f x u t a = Ok r /\ r <> Some []) /\
  (exists f r, Some ft = Some f /\ f x t x t a = Ok r /\ r <> Some []).
Proof.
  split.
  - intros H. destruct (fd x u t a) as [d|] eqn:E1; [|discriminate]. cbn [bind] in H. apply assert_ok in H. destruct H as [Hd H]. apply Nat.eqb_eq in Hd.
    destruct (fm x t x t a) as [[m|]|] eqn:E2; try discriminate. cbn [bind is_some assert_] in H.
    destruct (fr x u t a) as [[r|]|] eqn:E3; try discriminate. cbn [bind is_some assert_] in H.
    destruct (fp x u t a) as [pc|] eqn:E4; try discriminate. cbn [bind] in H.
    destruct (ft x t x t a) as [tc|] eqn:E5; try discriminate. cbn [bind] in H.
    split; [exists fd, d; auto|]. split; [exists fm, m; auto|]. split; [exists fr, r; auto|].
    split; [exists fp, pc; split; [auto|split; [auto|]]|exists ft, tc; split; [auto|split; [auto|]]].
    + intros ->. cbn in H. discriminate.
    + intros ->. destruct pc as [[|? ?]|]; cbn in H; discriminate.
  - intros ((f1 & d & N1 & E1 & Hd) & (f2 & m & N2 & E2) & (f3 & r & N3 & E3) & (f4 & pc & N4 & E4 & Hpc) & (f5 & tc & N5 & E5 & Htc)).
    injection N1 as <-. injection N2 as <-. injection N3 as <-. injection N4 as <-. injection N5 as <-.
    rewrite E1. cbn [bind]. rewrite Hd, Nat.eqb_refl. cbn [bind assert_]. rewrite E2. cbn [bind is_some assert_].
    rewrite E3. cbn [bind is_some assert_]. rewrite E4. cbn [bind]. rewrite E5. cbn [bind].
    destruct pc as [[|? ?]|]; [congruence| |]; cbn [length Nat.ltb Nat.leb assert_ bind]; (destruct tc as [[|? ?]|]; [congruence|reflexivity|reflexivity]).
Qed.
Lemma validate_phase_spec (o : ocp Rnum) ph : shapes_ok o -> (ph < o_nph o)%nat ->
  (validate_phase o ph = Ok tt <-> guess_ok o ph).
Proof.
  intros Hs Hph. unfold validate_phase, get_dynamics, get_terminal_costs, get_running_costs, get_path_constraints, get_terminal_constraints.
  destruct (sh_x00 _ Hs) as [Lx _]. destruct (sh_u00 _ Hs) as [Lu _]. destruct (sh_t00 _ Hs) as [Lt _]. destruct (sh_a0 _ Hs) as [La _].
  rewrite (at_ok _ ph []) by (nred; lia). cbn [bind]. rewrite (at_ok (o_u00 o) ph []) by (nred; lia). cbn [bind].
  rewrite (at_ok (o_t00 o) ph []) by (nred; lia). cbn [bind]. rewrite (at_ok (o_a0 o) ph []) by (nred; lia). cbn [bind].
  unfold guess_ok.
  assert (Hat : forall T (l : list T), length l = o_nph o -> exists f, nth_error l ph = Some f /\ at_ l ph = Ok f).
  { intros T l Hl. destruct (nth_error l ph) as [f|] eqn:E; [|apply nth_error_None in E; lia].
    exists f. split; [reflexivity|]. unfold at_. rewrite E. reflexivity. }
  destruct (Hat _ _ (sh_dyn _ Hs)) as (fd & Nd & Ed). destruct (Hat _ _ (sh_mayer _ Hs)) as (fm & Nm & Em).
  destruct (Hat _ _ (sh_run _ Hs)) as (fr & Nr & Er). destruct (Hat _ _ (sh_path _ Hs)) as (fp & Np & Ep).
  destruct (Hat _ _ (sh_term _ Hs)) as (ft & Nt & Et).
  rewrite Nd, Nm, Nr, Np, Nt, Ed, Em, Er, Ep, Et. cbn [bind].
  apply validate_phase_aux.
Qed.
Lemma validate_complete (o : ocp Rnum) : shapes_ok o -> (forall ph, (ph < o_nph o)%nat -> guess_ok o ph) -> validate o = Ok tt.
Proof.
  intros Hs Hg. unfold validate.
  assert (Hb : forall b (k : unit -> res unit), b = true -> k tt = Ok tt -> bind (assert_ b) k = Ok tt) by (intros b k -> H; exact H).
  apply Hb; [apply Nat.ltb_lt; apply (sh_nph _ Hs)|].
  do 5 (apply Hb; [apply Nat.eqb_eq; destruct Hs; assumption|]).
  rewrite (mapM_ok _ (fun _ => tt)).
  2:{ intros ph Hin. apply in_seq in Hin. apply validate_phase_spec; [auto|lia|]. apply Hg. lia. }
  cbn [bind].
  do 3 (apply Hb; [apply Nat.eqb_eq; destruct Hs; assumption|]).
  do 17 (apply Hb; [apply shape_spec; destruct Hs; assumption|]).
  do 2 (apply Hb; [apply Nat.eqb_eq; destruct Hs as []; intuition|]).
  do 2 (apply Hb; [destruct (Nat.ltb_spec 1 (o_nph o)); [|reflexivity]; apply shape_spec; destruct Hs; intuition|]).
  assert (E : forall b, b = true -> assert_ b = Ok tt) by (intros b ->; reflexivity).
  apply E, forallb_forall. intros ph Hin. apply in_seq in Hin.
  rewrite !andb_true_iff. destruct Hs. repeat split; try (apply rows_le_spec; intros i Hi; auto with arith); auto.
  all: try match goal with H : ordered _ _ _ _ |- ext_le _ _ => apply H; lia end.
  destruct (Nat.ltb_spec ph (o_nph o - 1)); [|reflexivity]. apply rows_le_spec. intros i Hi. apply sh_e; auto.
Qed.
Lemma validate_spec (o : ocp Rnum) : validate o = Ok tt <-> shapes_ok o /\ forall ph, (ph < o_nph o)%nat -> guess_ok o ph.
Proof.
  split; [|intros [H1 H2]; apply validate_complete; auto].
  intros H. pose proof (validate_sound o H) as Hs. split; [exact Hs|]. intros ph Hph. apply validate_phase_spec; auto.
  unfold validate in H.
  do 6 (apply assert_ok in H; destruct H as [_ H]).
  destruct (mapM (validate_phase o) (seq 0 (o_nph o))) as [us|e] eqn:E; [|discriminate].
  destruct (mapM_inv _ _ _ E) as [Hl Hn]. specialize (Hn ph). rewrite seq_length in Hl.
  destruct (Hn ph) as ([] & _ & Hv); [|exact Hv].
  rewrite (nth_error_nth' _ 0%nat) by (rewrite seq_length; auto). rewrite seq_nth by auto. reflexivity.
Qed.
Lemma validate_total (o : ocp Rnum) : validate o = Ok tt \/ exists e, validate o = Raise e.
Proof. destruct (validate o) as [[]|e]; eauto. Qed.

(** ** defaults *)
Lemma shaped_repeat {T} (v : T) r c : shaped (repeat (repeat v c) r) r c.
Proof. split; [apply repeat_length|]. intros row H. apply repeat_spec in H. subst. apply repeat_length. Qed.
Lemma nth_repeat_error {A} (a : A) n i : (i < n)%nat -> nth_error (repeat a n) i = Some a.
Proof. revert i; induction n; intros [|i] H; cbn; try lia; auto. apply IHn; lia. Qed.
Lemma nth_error_repeat_inv {A} (a b : A) n i : nth_error (repeat a n) i = Some b -> b = a.
Proof. intros H. apply nth_error_In, repeat_spec in H. auto. Qed.
Lemma ordered_repeat (a b : ext R) r c : ext_le a b -> ordered (repeat (repeat a c) r) (repeat (repeat b c) r) r c.
Proof. intros H i j Hi Hj. rewrite !(nth_repeat_in (A := list (ext R))), !(nth_repeat_in (A := ext R)) by auto. exact H. Qed.

Lemma new_ocp_inv nx nu nph na (o : ocp Rnum) : new_ocp nx nu nph na = Ok o ->
  (1 <= nph)%nat /\ o_nx o = nx /\ o_nu o = nu /\ o_nph o = nph /\ o_na o = na.
Proof. unfold new_ocp. destruct nph; [discriminate|]. intros H. injection H as <-. cbn. repeat split; auto. lia. Qed.
Lemma new_ocp_shapes nx nu nph na (o : ocp Rnum) : new_ocp nx nu nph na = Ok o -> shapes_ok o.
Proof.
  unfold new_ocp. destruct nph as [|m]; [discriminate|]. remember (S m) as n eqn:En. intros H. injection H as <-.
  constructor; cbn [o_nph o_nx o_nu o_na o_dyn o_path o_mayer o_run o_term o_links o_scale_x o_scale_u o_scale_a o_scale_t
    o_x00 o_xf0 o_u00 o_uf0 o_t00 o_tf0 o_a0 o_lbx o_ubx o_lbu o_ubu o_lba o_uba o_lbt0 o_ubt0 o_lbtf o_ubtf o_lbe o_ube];
    try apply repeat_length; try apply (shaped_repeat _ n); try (apply (ordered_repeat _ _ n); cbn; lra); auto.
  all: try lia.
  1-3, 5-6: exact (shaped_repeat _ n 1).
  - split; [cbn; rewrite repeat_length; auto|]. intros row [<-|Hin]; [reflexivity|]. apply repeat_spec in Hin. subst. reflexivity.
  - split; [apply repeat_length|]. intros _. apply shaped_repeat.
  - split; [apply repeat_length|]. intros _. apply shaped_repeat.
  - subst n. intros [|i] j Hi Hj; replace j with 0%nat by lia; [cbn; lra|]. cbn [repeat nth].
    rewrite !(nth_repeat_in (A := list (ext R))) by (nred; lia). cbn. exact I.
  - exact (ordered_repeat (Fin 0) PInf n 1 I).
  - apply ordered_repeat. cbn. lra.
Qed.
Lemma new_ocp_validates nx nu nph na (o : ocp Rnum) : new_ocp nx nu nph na = Ok o -> validate o = Ok tt.
Proof.
  intros H. apply validate_complete; [eapply new_ocp_shapes; eauto|].
  unfold new_ocp in H. destruct nph as [|m]; [discriminate|]. remember (S m) as n eqn:En. injection H as <-.
  intros ph Hph. cbn [o_nph] in Hph. unfold guess_ok. cbn [o_dyn o_mayer o_run o_path o_term o_nx o_na].
  split; [do 2 eexists; split; [apply nth_repeat_error; exact Hph|]; split; [reflexivity|apply repeat_length]|].
  split; [do 2 eexists; split; [apply nth_repeat_error; exact Hph|]; reflexivity|].
  split; [do 2 eexists; split; [apply nth_repeat_error; exact Hph|]; reflexivity|].
  split; do 2 eexists; (split; [apply nth_repeat_error; exact Hph|]; split; [reflexivity|discriminate]).
Qed.
Lemma new_ocp_ok nx nu nph na (o : ocp Rnum) : new_ocp nx nu nph na = Ok o -> (1 <= nx)%nat ->
  ocp_ok o (fun _ => None) (fun _ => None).
Proof.
  intros H Hx. pose proof (new_ocp_shapes _ _ _ _ _ H) as Hs.
  unfold new_ocp in H. destruct nph as [|m]; [discriminate|]. remember (S m) as n eqn:En. injection H as E.
  rewrite <- E in *. constructor; try exact Hs;
    cbn [o_nph o_nx o_nu o_na o_dyn o_path o_mayer o_run o_term o_links o_diff_u o_lbdu o_ubdu o_midu o_ducont]; auto.
  - intros ph f x u t a Hf _ _ _. apply nth_error_repeat_inv in Hf. subst f. eexists. split; [reflexivity|apply repeat_length].
  - intros ph f x u t a Hf _ _ _. apply nth_error_repeat_inv in Hf. subst f. eexists. reflexivity.
  - intros ph f xf tf x0 t0 a Hf _ _ _. apply nth_error_repeat_inv in Hf. subst f. eexists. reflexivity.
  - intros ph f x u t a Hf _ _ _. apply nth_error_repeat_inv in Hf. subst f. reflexivity.
  - intros ph f xf tf x0 t0 a Hf _ _ _. apply nth_error_repeat_inv in Hf. subst f. reflexivity.
  - apply repeat_length.
  - apply repeat_length.
  - apply repeat_length.
  - apply repeat_length.
  - apply repeat_length.
  - intros ph [Hd|Hd]; exfalso.
    + destruct (Nat.ltb_spec ph n); [rewrite nth_repeat_in in Hd by auto; discriminate|rewrite nth_overflow in Hd by (rewrite repeat_length; auto); discriminate].
    + destruct (Nat.ltb_spec ph n); [rewrite nth_repeat_in in Hd by auto; discriminate|rewrite nth_overflow in Hd by (rewrite repeat_length; auto); discriminate].
  - intros i j Hin. apply in_map_iff in Hin. destruct Hin as (k & Ek & Hk). injection Ek as <- <-. apply in_seq in Hk. lia.
  - rewrite map_length, seq_length. lia.
  - intros Hn Hnil. apply (f_equal (@length _)) in Hnil. rewrite map_length, seq_length in Hnil. cbn [length] in Hnil. lia.
Qed.
Lemma new_ocp_scales nx nu nph na (o : ocp Rnum) : new_ocp nx nu nph na = Ok o -> scales_pos o.
Proof.
  unfold new_ocp. destruct nph as [|m]; [discriminate|]. intros H. injection H as <-.
  constructor; cbn [o_scale_x o_scale_u o_scale_a o_scale_t]; try (intros s Hs; apply repeat_spec in Hs; subst s); nred; lra.
Qed.
