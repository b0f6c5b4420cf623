(** Collocation matrices over R (proofs). *)
From Coq Require Import Reals List Lia Lra Bool Arith.
From Coquelicot Require Import Coquelicot.
From Verif Require Import Num PyList Mat Poly Roots Colloc Spec NumR PolyR ListR.
Import ListNotations.
Open Scope R_scope.

Local Notation pder := (@pder Rnum).

Lemma get_lagrange_map m roots :
  @get_lagrange_polynomials Rnum m roots = map (basis_poly m roots) (seq 0 (length roots)).
Proof. reflexivity. Qed.

(** the functional "k-th derivative at x" on coefficient lists *)
Definition dform (k : nat) (c : list R) (x : R) : R := peval (Nat.iter k pder c) x.

Lemma dform_lin k : forall c n (w : nat -> R) (b : nat -> list R),
  (forall x, peval c x = Rsum n (fun j => w j * peval (b j) x)) ->
  forall x, dform k c x = Rsum n (fun j => w j * dform k (b j) x).
Proof.
  unfold dform. induction k as [|k IH]; intros c n w b H x; [apply H|].
  cbn [Nat.iter nat_rect]. apply (pder_lin (Nat.iter k pder c) n w (fun j => Nat.iter k pder (b j))).
  intros y. apply (IH c n w b H).
Qed.
Lemma dform_exact k roots c x : NoDup roots -> (length c <= length roots)%nat ->
  dform k c x = Rsum (length roots)
    (fun j => dform k (@lagrange_num Rnum roots j) x * peval c (nth j roots 0)).
Proof.
  intros Hnd Hl. rewrite (dform_lin k c (length roots) (fun j => peval c (nth j roots 0))
    (fun j => @lagrange_num Rnum roots j)).
  - apply Rsum_ext. intros; apply Rmult_comm.
  - apply lag_combination; auto.
Qed.

Lemma basis_matrix_ok (f : poly Rnum -> R -> res R) (polys : list (poly Rnum)) (pts : list R)
    (g : nat -> R -> R) d :
  (forall j x, (j < length polys)%nat -> f (nth j polys d) x = Ok (g j x)) ->
  exists M, @basis_matrix Rnum f polys pts = Ok M /\ nr M = length pts /\ nc M = length polys /\
    forall i j, (i < length pts)%nat -> (j < length polys)%nat -> mget M i j = g j (nth i pts 0).
Proof.
  intros H. unfold basis_matrix.
  pose (cols := map (fun j => map (g j) pts) (seq 0 (length polys))).
  assert (E : mapM (fun p => mapM (f p) pts) polys = Ok cols).
  { unfold cols. clear cols.
    assert (G : forall l s, (forall j x, (j < length l)%nat -> f (nth j l d) x = Ok (g (s + j)%nat x)) ->
      mapM (fun p => mapM (f p) pts) l = Ok (map (fun j => map (g j) pts) (seq s (length l)))).
    { induction l as [|p l IH]; intros s Hs; [reflexivity|]. cbn [mapM length seq map].
      rewrite (mapM_ok (f p) (g s)).
      2:{ intros x _. specialize (Hs 0%nat x ltac:(cbn; lia)). rewrite Nat.add_0_r in Hs. exact Hs. }
      cbn [bind]. rewrite (IH (S s)); [reflexivity|].
      intros j x Hj. specialize (Hs (S j) x ltac:(cbn; lia)). cbn in Hs. rewrite Hs. do 2 f_equal. lia. }
    apply (G polys 0%nat). exact H. }
  nred. rewrite E. cbn [bind]. eexists. split; [reflexivity|]. cbn. repeat split.
  intros i j Hi Hj. unfold cols.
  rewrite nth_indep with (d' := map (g 0%nat) pts) by (rewrite map_length, seq_length; auto).
  rewrite (map_nth (fun j => map (g j) pts) (seq 0 (length polys)) 0%nat j).
  rewrite seq_nth by auto. cbn.
  rewrite nth_indep with (d' := g j 0) by (rewrite map_length; auto).
  rewrite map_nth. reflexivity.
Qed.

Section Mats.
Variable cf : ccfg Rnum.
Local Notation m := (cf_meth cf).

Lemma basis_nth roots j d : (j < length roots)%nat ->
  nth j (@get_lagrange_polynomials Rnum m roots) d = basis_poly m roots j.
Proof.
  intros Hj. rewrite get_lagrange_map.
  rewrite nth_indep with (d' := basis_poly m roots 0) by (rewrite map_length, seq_length; auto).
  rewrite (map_nth (basis_poly m roots)). rewrite seq_nth by auto. reflexivity.
Qed.
Lemma basis_length roots : length (@get_lagrange_polynomials Rnum m roots) = length roots.
Proof. rewrite get_lagrange_map, map_length, seq_length. reflexivity. Qed.

Definition dmat_spec (k : nat) (roots pts : list R) (M : mat Rnum) : Prop :=
  nr M = length pts /\ nc M = length roots /\
  forall i j, (i < length pts)%nat -> (j < length roots)%nat ->
    mget M i j = dform k (@lagrange_num Rnum roots j) (nth i pts 0).

Lemma diff_matrix_of_ok roots pts k : NoDup roots -> (k = 1 \/ k = 2)%nat ->
  exists M, diff_matrix_of cf (get_lagrange_polynomials m roots) pts k = Ok M /\ dmat_spec k roots pts M.
Proof.
  intros Hnd Hk. unfold diff_matrix_of.
  destruct (basis_matrix_ok (poly_der_at m k) (get_lagrange_polynomials m roots) pts
     (fun j x => dform k (@lagrange_num Rnum roots j) x) (PNum [])) as (M & HM & Hr & Hc & Hg).
  - intros j x Hj. rewrite basis_length in Hj. rewrite basis_nth by auto.
    destruct Hk as [-> | ->]; [apply basis_der1|apply basis_der2]; auto.
  - exists M. rewrite basis_length in *. repeat split; auto.
Qed.
Lemma interp_matrix_of_ok roots pts : NoDup roots ->
  exists M, interp_matrix_of cf (get_lagrange_polynomials m roots) pts = Ok M /\ dmat_spec 0 roots pts M.
Proof.
  intros Hnd. unfold interp_matrix_of.
  destruct (basis_matrix_ok (poly_at m) (get_lagrange_polynomials m roots) pts
     (fun j x => dform 0 (@lagrange_num Rnum roots j) x) (PNum [])) as (M & HM & Hr & Hc & Hg).
  - intros j x Hj. rewrite basis_length in Hj. rewrite basis_nth by auto. apply basis_at; auto.
  - exists M. rewrite basis_length in *. repeat split; auto.
Qed.
Lemma quad_weights_of_ok roots a b : NoDup roots -> integ_exact (l_integ (cf_lib cf)) ->
  quad_weights_of cf (get_lagrange_polynomials m roots) a b =
  Ok (map (fun j => RInt (peval (@lagrange_num Rnum roots j)) a b) (seq 0 (length roots))).
Proof.
  intros Hnd Hig. unfold quad_weights_of. rewrite get_lagrange_map, mapM_map.
  apply mapM_ok. intros j Hj. apply in_seq in Hj. nred. apply basis_int; auto; lia.
Qed.

(** exactness on polynomials *)
Lemma dmat_exact k roots pts M c i : NoDup roots -> dmat_spec k roots pts M ->
  (length c <= length roots)%nat -> (i < length pts)%nat ->
  Rsum (nc M) (fun j => mget M i j * peval c (nth j roots 0)) = dform k c (nth i pts 0).
Proof.
  intros Hnd (Hr & Hc & Hg) Hl Hi. rewrite Hc, (dform_exact k roots c) by auto.
  apply Rsum_ext. intros j Hj. rewrite Hg by auto. reflexivity.
Qed.
Lemma weights_exact roots c a b : NoDup roots -> (length c <= length roots)%nat ->
  Rsum (length roots) (fun j => RInt (peval (@lagrange_num Rnum roots j)) a b * peval c (nth j roots 0))
  = RInt (peval c) a b.
Proof.
  intros Hnd Hl. symmetry. apply is_RInt_unique.
  eapply is_RInt_ext.
  - intros x _. symmetry. apply (lag_combination roots c Hnd Hl).
  - apply is_RInt_Rsum. intros k _.
    replace (RInt _ a b * peval c (nth k roots 0)) with
      (scal (peval c (nth k roots 0)) (RInt (peval (@lagrange_num Rnum roots k)) a b)).
    2:{ unfold scal; cbn. unfold mult; cbn. apply Rmult_comm. }
    apply (is_RInt_scal (peval (@lagrange_num Rnum roots k))).
    rewrite RInt_peval. apply is_RInt_peval.
Qed.

Lemma dform1_derive c x : is_derive (peval c) x (dform 1 c x).
Proof. apply is_derive_peval. Qed.
Lemma dform2_derive c x : is_derive_n (peval c) 2 x (dform 2 c x).
Proof.
  cbn. apply (is_derive_ext (peval (pder c))).
  - intros t. symmetry. apply is_derive_unique, is_derive_peval.
  - apply is_derive_peval.
Qed.
End Mats.

(** ** Block assembly *)

Definition placement : Type := (nat * nat * nat * nat * mat Rnum)%type.
Definition pl_step (M : mat Rnum) (p : placement) : res (mat Rnum) :=
  let '(r0, h, c0, w, B) := p in set_block M r0 h c0 w B.
Definition pl_row (p : placement) (i : nat) : Prop :=
  let '(r0, h, _, _, _) := p in (r0 <= i < r0 + h)%nat.
Definition pl_dims (p : placement) : Prop :=
  let '(r0, h, c0, w, B) := p in nr B = h /\ nc B = w.

Lemma set_block_ok (M B : mat Rnum) r0 h c0 w : nr B = h -> nc B = w ->
  exists M', set_block M r0 h c0 w B = Ok M' /\ nr M' = nr M /\ nc M' = nc M /\
    forall i j, mget M' i j =
      if (r0 <=? i) && (i <? r0 + h) && (c0 <=? j) && (j <? c0 + w)
      then mget B (i - r0) (j - c0) else mget M i j.
Proof.
  intros Hr Hc. unfold set_block. rewrite Hr, Hc, !Nat.eqb_refl. cbn.
  eexists. split; [reflexivity|]. cbn. auto.
Qed.

Lemma place_ok pl : List.Forall pl_dims pl -> forall M0,
  exists M, foldM pl_step pl M0 = Ok M /\ nr M = nr M0 /\ nc M = nc M0 /\
  (forall i j, (forall p, In p pl -> ~ pl_row p i) -> mget M i j = mget M0 i j) /\
  (forall k r0 h c0 w B i j, nth_error pl k = Some (r0, h, c0, w, B) -> (r0 <= i < r0 + h)%nat ->
     (forall k' p, k' <> k -> nth_error pl k' = Some p -> ~ pl_row p i) ->
     mget M i j = if (c0 <=? j) && (j <? c0 + w) then mget B (i - r0) (j - c0) else mget M0 i j).
Proof.
  induction pl as [|p pl IH]; intros HF M0.
  - exists M0. cbn. repeat split; auto. intros [|k]; discriminate.
  - inversion HF as [|? ? Hp HF']; subst. destruct p as [[[[r0 h] c0] w] B].
    destruct Hp as [Hr Hc].
    destruct (set_block_ok M0 B r0 h c0 w Hr Hc) as (M1 & E1 & Hr1 & Hc1 & Hg1).
    destruct (IH HF' M1) as (M & E & Hr2 & Hc2 & Hout & Hin).
    exists M. cbn [foldM pl_step]. rewrite E1. cbn [bind]. split; [exact E|].
    split; [congruence|]. split; [congruence|]. split.
    + intros i j Hno. rewrite Hout by (intros p Hp; apply Hno; right; auto).
      rewrite Hg1. assert (Hn : ~ (r0 <= i < r0 + h)%nat) by (apply (Hno (r0, h, c0, w, B)); left; auto).
      destruct (Nat.leb_spec r0 i), (Nat.ltb_spec i (r0 + h)); cbn; auto; lia.
    + intros [|k] r0' h' c0' w' B' i j Hk Hi Hdis; cbn in Hk.
      * inversion Hk; subst.
        rewrite Hout.
        2:{ intros p Hp. apply In_nth_error in Hp. destruct Hp as [k' Hk'].
            apply (Hdis (S k')); auto. }
        rewrite Hg1. destruct (Nat.leb_spec r0' i), (Nat.ltb_spec i (r0' + nr B')); cbn; auto; lia.
      * rewrite (Hin k r0' h' c0' w' B' i j Hk Hi).
        2:{ intros k' p Hne Hk'. apply (Hdis (S k')); auto. }
        destruct ((c0' <=? j) && (j <? c0' + w')); auto.
        rewrite Hg1. assert (Hn : ~ (r0 <= i < r0 + h)%nat) by (apply (Hdis 0%nat (r0, h, c0, w, B)); auto).
        destruct (Nat.leb_spec r0 i), (Nat.ltb_spec i (r0 + h)); cbn; auto; lia.
Qed.

Lemma foldM_map {A B S} (f : S -> B -> res S) (g : A -> B) l s :
  foldM f (map g l) s = foldM (fun s a => f s (g a)) l s.
Proof. revert s; induction l; intros; cbn; [reflexivity|]. destruct (f s (g a)); cbn; auto. Qed.
Lemma foldM_ext {A S} (f g : S -> A -> res S) l s :
  (forall s a, In a l -> f s a = g s a) -> foldM f l s = foldM g l s.
Proof.
  revert s; induction l as [|a l IH]; intros s H; cbn; [reflexivity|].
  rewrite H by (left; auto). destruct (g s a); cbn; auto.
  apply IH. intros; apply H; right; auto.
Qed.

Lemma assemble_diff_ok orders (Ds : list (mat Rnum)) : length Ds = length orders ->
  (forall k p D, nth_error orders k = Some p -> nth_error Ds k = Some D -> nr D = (p + 1)%nat /\ nc D = (p + 1)%nat) ->
  exists M, assemble_diff orders Ds = Ok M /\ nr M = total_nodes orders /\ nc M = total_nodes orders /\
  forall k p D i j, nth_error orders k = Some p -> nth_error Ds k = Some D ->
    (i <= p)%nat -> (k = 0 \/ 1 <= i)%nat ->
    mget M (offset orders k + i)%nat j =
      if (offset orders k <=? j)%nat && (j <=? offset orders k + p)%nat
      then mget D i (j - offset orders k)%nat else 0.
Proof.
  intros Hlen Hdim. unfold assemble_diff.
  pose (plc := fun x : nat * (nat * mat Rnum) => let '(i, (p, D)) := x in
     if Nat.eqb i 0 then (0, p + 1, 0, p + 1, D)%nat
     else (offset orders i + 1, p, offset orders i, 1 + p, drop_rows 1 D)%nat : placement).
  pose (pl := map plc (enumerate (combine orders Ds))).
  rewrite (foldM_ext _ (fun M x => pl_step M (plc x))).
  2:{ intros s [i [p D]] _. cbn. rewrite nsum_firstn. destruct (Nat.eqb i 0); reflexivity. }
  rewrite <- (foldM_map pl_step plc). fold pl.
  assert (Hpl : forall k p D, nth_error orders k = Some p -> nth_error Ds k = Some D ->
     nth_error pl k = Some (plc (k, (p, D)))).
  { intros k p D Hk HD. unfold pl. apply map_nth_error, nth_error_enumerate, nth_error_combine; auto. }
  assert (Hpl' : forall k q, nth_error pl k = Some q -> exists p D,
     nth_error orders k = Some p /\ nth_error Ds k = Some D /\ q = plc (k, (p, D))).
  { intros k q Hq. assert (Hk : (k < length orders)%nat).
    { assert (k < length pl)%nat by (apply nth_error_Some; congruence).
      unfold pl in H. rewrite map_length, enumerate_length, combine_length in H. lia. }
    destruct (nth_error orders k) as [p|] eqn:Ep; [|apply nth_error_None in Ep; lia].
    destruct (nth_error Ds k) as [D|] eqn:ED; [|apply nth_error_None in ED; lia].
    exists p, D. rewrite (Hpl k p D) in Hq by auto. inversion Hq; auto. }
  assert (HF : List.Forall pl_dims pl).
  { apply List.Forall_forall. intros q Hq. apply In_nth_error in Hq. destruct Hq as [k Hk].
    destruct (Hpl' k q Hk) as (p & D & Hp & HD & ->). destruct (Hdim k p D Hp HD) as [Hr Hc].
    cbn. destruct (Nat.eqb k 0); cbn; rewrite ?Hr, ?Hc; lia. }
  destruct (place_ok pl HF (zeros (nsum orders + 1) (nsum orders + 1))) as (M & E & Hr & Hc & _ & Hin).
  exists M. split; [exact E|]. rewrite Hr, Hc. cbn. rewrite nsum_offset.
  split; [reflexivity|]. split; [reflexivity|].
  intros k p D i j Hp HD Hi Hki.
  pose proof (offset_S orders k p Hp) as HS.
  assert (Hdisj : forall k' q, k' <> k -> nth_error pl k' = Some q -> ~ pl_row q (offset orders k + i)).
  { intros k' q Hne Hq. destruct (Hpl' k' q Hq) as (p' & D' & Hp' & HD' & ->).
    pose proof (offset_S orders k' p' Hp') as HS'.
    cbn. destruct (Nat.lt_ge_cases k' k) as [Hlt|Hge].
    - pose proof (offset_mono orders (S k') k ltac:(lia)).
      destruct (Nat.eqb_spec k' 0) as [->|]; cbn; [rewrite offset_0 in HS'|]; lia.
    - pose proof (offset_mono orders (S k) k' ltac:(lia)).
      destruct (Nat.eqb_spec k' 0) as [->|]; [lia|]. cbn. lia. }
  specialize (Hpl k p D Hp HD).
  destruct (Nat.eqb_spec k 0) as [Hk0|Hk0].
  - cbn in Hpl. rewrite Hk0 in Hpl at 2. cbn in Hpl. subst k. rewrite offset_0 in *.
    erewrite (Hin 0%nat); [|exact Hpl|lia|exact Hdisj].
    rewrite !Nat.sub_0_r. cbn [Nat.leb andb Nat.add zeros mget].
    destruct (Nat.ltb_spec j (p + 1)), (Nat.leb_spec j p); auto; lia.
  - cbn in Hpl. destruct (Nat.eqb_spec k 0) as [?|_]; [lia|].
    erewrite (Hin k); [|exact Hpl|lia|exact Hdisj].
    destruct (Nat.leb_spec (offset orders k) j), (Nat.ltb_spec j (offset orders k + S p)),
      (Nat.leb_spec j (offset orders k + p)); cbn [andb drop_rows mget zeros]; auto; try lia.
    f_equal; lia.
Qed.

Lemma assemble_interp_ok (taus : list (list R)) orders (Cs : list (mat Rnum)) :
  length Cs = length orders -> (length orders <= length taus)%nat ->
  (forall k p C t, nth_error orders k = Some p -> nth_error Cs k = Some C -> nth_error taus k = Some t ->
     nr C = length t /\ nc C = (p + 1)%nat) ->
  exists M, @assemble_interp Rnum taus orders Cs = Ok M /\
  nr M = offset (map (@length R) taus) (length taus) /\ nc M = total_nodes orders /\
  forall k p C t i j, nth_error orders k = Some p -> nth_error Cs k = Some C -> nth_error taus k = Some t ->
    (i < length t)%nat ->
    mget M (offset (map (@length R) taus) k + i)%nat j =
      if (offset orders k <=? j)%nat && (j <=? offset orders k + p)%nat
      then mget C i (j - offset orders k)%nat else 0.
Proof.
  intros Hlen Hlt Hdim. unfold assemble_interp.
  set (nt := map (@length Rnum) taus).
  assert (Hnt : forall k t, nth_error taus k = Some t -> nth_error nt k = Some (length t)).
  { intros k t Hk. unfold nt. apply (map_nth_error (@length R) k taus Hk). }
  pose (plc := fun x : nat * (nat * mat Rnum) => let '(i, (p, C)) := x in
     (offset nt i, nth i nt 0%nat, offset orders i, (1 + p)%nat, C) : placement).
  pose (xs := filter (fun x => negb (Nat.eqb (nth (fst x) nt 0%nat) 0)) (enumerate (combine orders Cs))).
  (* skipping empty segments equals filtering *)
  assert (Hfil : forall l M, foldM (fun M '(i, (p, C)) =>
      let ni := nth i nt 0%nat in
      if Nat.eqb ni 0 then Ok M
      else set_block M (nsum (firstn i nt)) ni (nsum (firstn i orders)) (1 + p) C) l M
    = foldM pl_step (map plc (filter (fun x => negb (Nat.eqb (nth (fst x) nt 0%nat) 0)) l)) M).
  { induction l as [|[i [p C]] l IH]; intros M; [reflexivity|].
    cbn [foldM filter fst]. destruct (Nat.eqb_spec (nth i nt 0%nat) 0); cbn [negb bind].
    - apply IH.
    - cbn [map foldM]. unfold pl_step at 1, plc at 1. rewrite !nsum_firstn.
      destruct (set_block M (offset nt i) (nth i nt 0%nat) (offset orders i) (1 + p) C); cbn [bind]; auto. }
  rewrite Hfil. fold xs. set (pl := map plc xs).
  assert (Hxs : forall x, In x xs -> exists k p C t, x = (k, (p, C)) /\ nth_error orders k = Some p /\
     nth_error Cs k = Some C /\ nth_error taus k = Some t /\ nth k nt 0%nat = length t).
  { intros [k [p C]] Hx. unfold xs in Hx. apply filter_In in Hx. destruct Hx as [Hx _].
    apply in_enumerate, in_combine_nth in Hx. destruct Hx as [Hp HC].
    assert (k < length orders)%nat by (apply nth_error_Some; congruence).
    destruct (nth_error taus k) as [t|] eqn:Et; [|apply nth_error_None in Et; lia].
    exists k, p, C, t. repeat split; auto. apply nth_error_nth. apply Hnt; auto. }
  assert (HF : List.Forall pl_dims pl).
  { apply List.Forall_forall. intros q Hq. unfold pl in Hq. apply in_map_iff in Hq.
    destruct Hq as (x & <- & Hx). destruct (Hxs x Hx) as (k & p & C & t & -> & Hp & HC & Ht & Hn).
    destruct (Hdim k p C t Hp HC Ht) as [Hr Hc]. cbn. rewrite Hr, Hc, Hn. lia. }
  destruct (place_ok pl HF (zeros (nsum nt) (nsum orders + 1))) as (M & E & Hr & Hc & _ & Hin).
  exists M. split; [exact E|]. rewrite Hr, Hc. cbn. rewrite !nsum_offset.
  split; [unfold nt; rewrite map_length; reflexivity|]. split; [reflexivity|].
  intros k p C t i j Hp HC Ht Hi.
  assert (Hnk : nth k nt 0%nat = length t) by (apply nth_error_nth, Hnt; auto).
  assert (Hx : In (k, (p, C)) xs).
  { unfold xs. apply filter_In. split.
    - eapply nth_error_In. apply nth_error_enumerate. apply nth_error_combine; eauto.
    - cbn [fst]. rewrite Hnk. destruct (length t); [lia|reflexivity]. }
  apply In_nth_error in Hx. destruct Hx as [q Hq].
  assert (Hpq : nth_error pl q = Some (plc (k, (p, C)))) by (unfold pl; apply map_nth_error; auto).
  cbn in Hpq. rewrite Hnk in Hpq.
  change (map (@length R) taus) with nt. cbn [carrier Rnum] in *.
  erewrite (Hin q); [|exact Hpq|lia|].
  - replace (offset nt k + i - offset nt k)%nat with i by lia. destruct (Nat.leb_spec (offset orders k) j), (Nat.ltb_spec j (offset orders k + S p)),
      (Nat.leb_spec j (offset orders k + p)); cbn; auto; try lia.
  - intros q' pp Hne Hq'. unfold pl in Hq'.
    destruct (nth_error xs q') as [x|] eqn:Ex.
    2:{ apply nth_error_None in Ex. rewrite <- (map_length plc) in Ex. apply nth_error_None in Ex. congruence. }
    rewrite (map_nth_error plc q' xs Ex) in Hq'. inversion Hq'; subst pp.
    destruct (Hxs x (nth_error_In _ _ Ex)) as (k' & p' & C' & t' & -> & Hp' & HC' & Ht' & Hn').
    assert (Hkk : k' <> k).
    { intros ->. apply Hne.
      assert (Hnd : NoDup (map fst xs)).
      { unfold xs. clear. unfold enumerate. generalize (combine orders Cs) as l. intros l.
        assert (G : forall l s, NoDup (map fst (filter (fun x : nat * (nat * mat Rnum) => negb (Nat.eqb (nth (fst x) nt 0%nat) 0)) (combine (seq s (length l)) l)))
          /\ forall y, In y (map fst (filter (fun x : nat * (nat * mat Rnum) => negb (Nat.eqb (nth (fst x) nt 0%nat) 0)) (combine (seq s (length l)) l))) -> (s <= y)%nat).
        { induction l0 as [|a l0 IH]; intros s; cbn; [split; [constructor|tauto]|].
          destruct (IH (S s)) as [I1 I2].
          destruct (negb (Nat.eqb (nth s nt 0%nat) 0)); cbn.
          - split; [constructor; auto; intros Hs; apply I2 in Hs; lia|].
            intros y [->|Hy]; [lia|apply I2 in Hy; lia].
          - split; auto. intros y Hy; apply I2 in Hy; lia. }
        apply G. }
      apply (proj1 (NoDup_nth_error (map fst xs)) Hnd).
      - rewrite map_length. apply nth_error_Some. congruence.
      - rewrite (map_nth_error fst q' xs Ex), (map_nth_error fst q xs Hq). reflexivity. }
    cbn. rewrite Hn'.
    pose proof (offset_S nt k _ (Hnt k t Ht)) as HS.
    pose proof (offset_S nt k' _ (Hnt k' t' Ht')) as HS'.
    destruct (Nat.lt_ge_cases k' k) as [Hl|Hg].
    + pose proof (offset_mono nt (S k') k ltac:(lia)). lia.
    + pose proof (offset_mono nt (S k) k' ltac:(lia)). lia.
Qed.
