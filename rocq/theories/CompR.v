(** Nodes of the supported schemes and exactness of the composite matrices (proofs). *)
From Coq Require Import Reals Lia Lra Bool Arith.
From Coquelicot Require Import Coquelicot.
From Coq Require Import String List.
From Verif Require Import Num PyList Mat Poly Roots Colloc Spec NumR PolyR ListR CollocR.
Import ListNotations.
Open Scope R_scope.

(** ** Nodes *)

Lemma increasing_nodup l : increasing l -> NoDup l.
Proof.
  intros H. apply (NoDup_nth l 0). intros i j Hi Hj E.
  destruct (Nat.lt_trichotomy i j) as [Hl|[He|Hl]]; auto.
  - specialize (H i j ltac:(lia)). lra.
  - specialize (H j i ltac:(lia)). lra.
Qed.
Lemma increasing_map f l : (forall x y, x < y -> f x < f y) -> increasing l -> increasing (map f l).
Proof.
  intros Hf H i j Hij. rewrite map_length in Hij.
  rewrite !(nth_indep (map f l) 0 (f 0)) by (rewrite map_length; lia).
  rewrite !map_nth. apply Hf, H; lia.
Qed.
Lemma increasing_cons a l : (forall x, In x l -> a < x) -> increasing l -> increasing (a :: l).
Proof.
  intros Ha Hl [|i] [|j] Hij; cbn in *; try lia.
  - apply Ha, nth_In. lia.
  - apply Hl. lia.
Qed.
Lemma increasing_snoc l b : (forall x, In x l -> x < b) -> increasing l -> increasing (l ++ [b]).
Proof.
  intros Hb Hl i j Hij. rewrite app_length in Hij. cbn in Hij.
  destruct (Nat.eq_dec j (length l)) as [->|Hj].
  - rewrite (app_nth2 l [b] 0 (n:=length l)) by lia. rewrite Nat.sub_diag. cbn.
    rewrite app_nth1 by lia. apply Hb, nth_In. lia.
  - rewrite !app_nth1 by lia. apply Hl. lia.
Qed.

Definition scale1 (a b r : R) : R := a + (b - a) / 2 * (r + 1).
Lemma scale_roots_R (a b : R) l : @scale_roots Rnum a b l = map (scale1 a b) l.
Proof. unfold scale_roots. apply map_ext. intros r. rewrite n2_R. reflexivity. Qed.
Lemma scale1_mono a b x y : a < b -> x < y -> scale1 a b x < scale1 a b y.
Proof. intros H Hxy. unfold scale1. apply Rplus_lt_compat_l. apply Rmult_lt_compat_l; lra. Qed.


Lemma ends_good (t0 t1 : R) (p : nat) (js : list R) : t0 < t1 -> (1 <= p)%nat ->
  length js = (p - 1)%nat -> increasing js -> (forall x, In x js -> -1 < x < 1) ->
  good_nodes t0 t1 p (map (scale1 t0 t1) ((-1 :: js) ++ [1])).
Proof.
  intros Ht Hp Hl Hi Hin. repeat split.
  - rewrite map_length, app_length. cbn. lia.
  - apply increasing_map; [intros; apply scale1_mono; auto|].
    apply increasing_snoc.
    + intros x [<-|Hx]; [lra|apply Hin in Hx; lra].
    + apply increasing_cons; auto. intros x Hx. apply Hin in Hx. lra.
  - cbn. unfold scale1. field.
  - rewrite (nth_indep _ 0 (scale1 t0 t1 0)) by (rewrite map_length, app_length; cbn; lia).
    rewrite map_nth. rewrite app_nth2 by (cbn; lia). cbn [length].
    replace (p - S (length js))%nat with 0%nat by lia. cbn. unfold scale1. field.
Qed.
Lemma two_good (t0 t1 : R) : t0 < t1 -> good_nodes t0 t1 1 [t0; t1].
Proof.
  intros H. repeat split; auto.
  intros [|[|i]] [|[|j]] Hij; cbn in *; try lia; auto.
Qed.

Lemma cgl_good (t0 t1 : R) (p : nat) : t0 < t1 -> (1 <= p)%nat ->
  good_nodes t0 t1 p (map (scale1 t0 t1)
    (rev (map (fun j => cos (PI * INR j / INR p)) (seq 0 (p + 1))))).
Proof.
  intros Ht Hp.
  assert (Hp0 : 0 < INR p) by (apply lt_0_INR; lia).
  set (cs := map (fun j => cos (PI * INR j / INR p)) (seq 0 (p + 1))).
  assert (Hlen : length cs = S p) by (unfold cs; rewrite map_length, seq_length; lia).
  assert (Hnth : forall j, (j <= p)%nat -> nth j cs 0 = cos (PI * INR j / INR p)).
  { intros j Hj. unfold cs.
    rewrite (nth_indep _ 0 ((fun j => cos (PI * INR j / INR p)) 0%nat)) by (rewrite map_length, seq_length; lia).
    rewrite (map_nth (fun j => cos (PI * INR j / INR p))). rewrite seq_nth by lia. reflexivity. }
  assert (Hrev : forall j, (j <= p)%nat -> nth j (rev cs) 0 = cos (PI * INR (p - j) / INR p)).
  { intros j Hj. rewrite rev_nth by lia. rewrite Hlen. rewrite Hnth by lia. replace (S p - S j)%nat with (p - j)%nat by lia. reflexivity. }
  repeat split.
  - rewrite map_length, rev_length. exact Hlen.
  - apply increasing_map; [intros; apply scale1_mono; auto|].
    intros i j Hij. rewrite rev_length, Hlen in Hij.
    rewrite !Hrev by lia.
    assert (Hc : INR (p - j) < INR (p - i)) by (apply lt_INR; lia).
    assert (Hi : INR (p - i) <= INR p) by (apply le_INR; lia).
    assert (Hj0 : 0 <= INR (p - j)) by apply pos_INR.
    pose proof PI_RGT_0 as HPI.
    apply cos_decreasing_1.
    + apply Rmult_le_pos; [nra|left; apply Rinv_0_lt_compat; auto].
    + apply Rle_div_l; [auto|]. nra.
    + apply Rmult_le_pos; [nra|left; apply Rinv_0_lt_compat; auto].
    + apply Rle_div_l; [auto|]. nra.
    + apply Rmult_lt_compat_r; [apply Rinv_0_lt_compat; auto|]. nra.
  - rewrite (nth_indep _ 0 (scale1 t0 t1 0)) by (rewrite map_length, rev_length; lia).
    rewrite map_nth, Hrev by lia. rewrite Nat.sub_0_r.
    replace (PI * INR p / INR p) with PI by (field; lra). rewrite cos_PI. unfold scale1. field.
  - rewrite (nth_indep _ 0 (scale1 t0 t1 0)) by (rewrite map_length, rev_length; lia).
    rewrite map_nth, Hrev by lia. rewrite Nat.sub_diag.
    replace (PI * INR 0 / INR p) with 0 by (cbn; field; lra). rewrite cos_0. unfold scale1. field.
Qed.

Lemma c_roots_good cf p : cfg_ok cf -> (1 <= p)%nat ->
  exists r, c_roots cf p = Ok r /\ good_nodes (cf_tau0 cf) (cf_tau1 cf) p r.
Proof.
  intros [[Hcos Hpi Hrad Hlob Hint] Hs Ht] Hp. unfold c_roots, taus_fn.
  destruct Hs as [<-|[<-|[<-|[]]]]; cbn [String.eqb Ascii.eqb Bool.eqb].
  - unfold lgr_roots. destruct (Nat.ltb_spec 1 p) as [H1|H1].
    + eexists. split; [reflexivity|]. rewrite scale_roots_R.
      destruct (Hrad (p - 1)%nat ltac:(lia)) as (Hl & Hi & Hin & _).
      apply ends_good; auto.
    + assert (p = 1%nat) by lia. subst p. cbn. eexists; split; [reflexivity|]. apply two_good; auto.
  - unfold lgl_roots. destruct (Nat.ltb_spec 1 p) as [H1|H1].
    + eexists. split; [reflexivity|]. rewrite scale_roots_R.
      destruct (Hlob (p - 1)%nat ltac:(lia)) as (Hl & Hi & Hin & _).
      apply ends_good; auto.
    + assert (p = 1%nat) by lia. subst p. cbn. eexists; split; [reflexivity|]. apply two_good; auto.
  - unfold cgl_roots. destruct (Nat.eqb_spec p 0); [lia|].
    eexists. split; [reflexivity|]. rewrite scale_roots_R.
    erewrite map_ext_in with (l := seq 0 (p + 1)); [apply (cgl_good (cf_tau0 cf) (cf_tau1 cf) p Ht Hp)|].
    intros j _. rewrite Hcos, Hpi, !nofnat_R. reflexivity.
Qed.

(** ** Composite matrices *)

(** nodes of every segment *)
Definition seg_nodes (cf : ccfg Rnum) (orders : list nat) (rs : list (list R)) : Prop :=
  mapM (c_roots cf) orders = Ok rs /\
  forall k p r, nth_error orders k = Some p -> nth_error rs k = Some r ->
    c_roots cf p = Ok r /\ length r = S p /\ NoDup r.

Lemma seg_nodes_exist cf orders : cfg_ok cf -> (forall p, In p orders -> (1 <= p)%nat) ->
  exists rs, mapM (c_roots cf) orders = Ok rs /\ length rs = length orders /\
    forall k p, nth_error orders k = Some p -> exists r, nth_error rs k = Some r /\
      c_roots cf p = Ok r /\ good_nodes (cf_tau0 cf) (cf_tau1 cf) p r.
Proof.
  intros Hcf Hp. induction orders as [|p orders IH].
  - exists []. split; [reflexivity|]. split; [reflexivity|]. intros [|k]; discriminate.
  - destruct IH as (rs & E & Hl & Hn); [intros; apply Hp; right; auto|].
    destruct (c_roots_good cf p Hcf) as (r & Er & Hr); [apply Hp; left; auto|].
    exists (r :: rs). cbn [mapM]. rewrite Er. cbn [bind]. rewrite E. split; [reflexivity|]. split; [cbn; nred; lia|].
    intros [|k] q Hk; cbn in *.
    + inversion Hk; subst. eauto.
    + apply Hn; auto.
Qed.
Lemma good_nodup t0 t1 p r : good_nodes t0 t1 p r -> NoDup r.
Proof. intros (_ & H & _). apply increasing_nodup; auto. Qed.
Lemma seg_nodes_ok cf orders : cfg_ok cf -> (forall p, In p orders -> (1 <= p)%nat) ->
  exists rs, seg_nodes cf orders rs /\ length rs = length orders /\
    forall k p r, nth_error orders k = Some p -> nth_error rs k = Some r ->
      good_nodes (cf_tau0 cf) (cf_tau1 cf) p r.
Proof.
  intros Hcf Hp. destruct (seg_nodes_exist cf orders Hcf Hp) as (rs & E & Hl & Hn).
  exists rs. split; [|split; [exact Hl|]].
  - split; [exact E|]. intros k p r Hk Hr. destruct (Hn k p Hk) as (r' & Hr' & Ec & Hg).
    assert (r' = r) by (nred; congruence). subst r'. split; [exact Ec|].
    split; [apply Hg|]. eapply good_nodup; eauto.
  - intros k p r Hk Hr. destruct (Hn k p Hk) as (r' & Hr' & Ec & Hg). nred; congruence.
Qed.


Lemma block_row cols off p (M : nat -> R) (B : nat -> R) (ys : nat -> R) :
  (off + p < cols)%nat ->
  (forall j, M j = if (off <=? j)%nat && (j <=? off + p)%nat then B (j - off)%nat else 0) ->
  Rsum cols (fun j => M j * ys j) = Rsum (S p) (fun j => B j * ys (off + j)%nat).
Proof.
  intros Hc HM. rewrite (Rsum_block cols _ off (S p)).
  - apply Rsum_ext. intros j Hj. rewrite HM.
    destruct (Nat.leb_spec off (off + j)); [|lia].
    destruct (Nat.leb_spec (off + j) (off + p)); [|lia]. cbn.
    replace (off + j - off)%nat with j by lia. reflexivity.
  - lia.
  - intros j Hj Ho. rewrite HM.
    destruct (Nat.leb_spec off j), (Nat.leb_spec j (off + p)); cbn; try lra; lia.
Qed.

Lemma off_lt_total orders k p : nth_error orders k = Some p ->
  (offset orders k + p < total_nodes orders)%nat.
Proof.
  intros H. assert (Hk : (k < length orders)%nat) by (apply nth_error_Some; congruence).
  unfold total_nodes. rewrite <- (offset_S _ _ _ H).
  pose proof (offset_mono orders (S k) (length orders) Hk). lia.
Qed.

Lemma comp_diff_ok cf orders rs ord : seg_nodes cf orders rs -> (ord = 1 \/ ord = 2)%nat ->
  exists M, comp_diff cf orders ord = Ok M /\ nr M = total_nodes orders /\ nc M = total_nodes orders /\
  forall k p r i ys c, nth_error orders k = Some p -> nth_error rs k = Some r ->
    (i <= p)%nat -> (k = 0 \/ 1 <= i)%nat -> seg_interp orders k r ys c ->
    Rsum (total_nodes orders) (fun j => mget M (offset orders k + i) j * ys j) = dform ord c (nth i r 0).
Proof.
  intros [Hrs Hn] Hord.
  destruct (mapM_inv _ _ _ Hrs) as [Hlen Hnth].
  assert (HD : exists Ds, mapM (fun p => diff_matrix cf p None ord) orders = Ok Ds /\
     length Ds = length orders /\
     forall k p r D, nth_error orders k = Some p -> nth_error rs k = Some r -> nth_error Ds k = Some D ->
       dmat_spec ord r r D).
  { clear Hlen. revert rs Hrs Hn Hnth. induction orders as [|p orders IH]; intros rs Hrs Hn Hnth.
    - exists []. split; [reflexivity|]. split; [reflexivity|]. intros [|k]; discriminate.
    - cbn [mapM] in Hrs. destruct (c_roots cf p) as [r|] eqn:Er; [|discriminate]. cbn [bind] in Hrs.
      destruct (mapM (c_roots cf) orders) as [rs'|] eqn:Es; [|discriminate]. cbn [bind] in Hrs.
      inversion Hrs; subst rs.
      destruct (IH rs' eq_refl) as (Ds & EDs & HlD & HnD).
      + intros k. apply (Hn (S k)).
      + intros k. apply (Hnth (S k)).
      + destruct (Hn 0%nat p r eq_refl eq_refl) as (_ & Hlr & Hnd).
        destruct (diff_matrix_of_ok cf r r ord Hnd Hord) as (D & ED & Hspec).
        exists (D :: Ds). cbn [mapM]. unfold diff_matrix at 1. rewrite Er. cbn [bind]. rewrite ED. cbn [bind].
        rewrite EDs. cbn [bind]. split; [reflexivity|]. split; [cbn; lia|].
        intros [|k] p' r' D' H1 H2 H3; cbn in *.
        * congruence.
        * eapply HnD; eauto. }
  destruct HD as (Ds & EDs & HlD & HsD).
  unfold comp_diff. rewrite EDs. cbn [bind].
  destruct (assemble_diff_ok orders Ds HlD) as (M & EM & Hr & Hc & Hg).
  { intros k p D Hp HDk. destruct (Hnth k p Hp) as (r & Hr & _).
    destruct (HsD k p r D Hp Hr HDk) as (H1 & H2 & _). destruct (Hn k p r Hp Hr) as (_ & Hl & _). lia. }
  exists M. split; [exact EM|]. split; [exact Hr|]. split; [exact Hc|].
  intros k p r i ys c Hp Hr' Hi Hki [Hcl Hci].
  destruct (Hn k p r Hp Hr') as (_ & Hl & Hnd).
  destruct (nth_error Ds k) as [D|] eqn:HDk.
  2:{ apply nth_error_None in HDk. assert (k < length orders)%nat by (apply nth_error_Some; congruence). lia. }
  pose proof (HsD k p r D Hp Hr' HDk) as HD.
  rewrite (block_row _ (offset orders k) p _ (fun j => mget D i j) ys).
  - rewrite <- (dmat_exact ord r r D c i Hnd HD Hcl) by lia.
    destruct HD as (_ & HcD & _). rewrite HcD, Hl. apply Rsum_ext. intros j Hj.
    rewrite Hci by lia. reflexivity.
  - apply off_lt_total; auto.
  - intros j. apply Hg; auto.
Qed.

Lemma comp_interp_gen cf (taus : list (list R)) orders rs ord
    (f : nat * nat -> res (mat Rnum)) :
  seg_nodes cf orders rs -> length taus = length orders ->
  (forall k p r t, nth_error orders k = Some p -> nth_error rs k = Some r -> nth_error taus k = Some t ->
     exists C, f (k, p) = Ok C /\ dmat_spec ord r t C) ->
  exists M, (Cs <- mapM f (enumerate orders) ;; @assemble_interp Rnum taus orders Cs) = Ok M /\
  nr M = offset (map (@length R) taus) (length taus) /\ nc M = total_nodes orders /\
  forall k p r t i ys c, nth_error orders k = Some p -> nth_error rs k = Some r -> nth_error taus k = Some t ->
    (i < length t)%nat -> seg_interp orders k r ys c ->
    Rsum (total_nodes orders) (fun j => mget M (offset (map (@length R) taus) k + i) j * ys j)
    = dform ord c (nth i t 0).
Proof.
  intros [Hrs Hn] Hlt Hf.
  destruct (mapM_inv _ _ _ Hrs) as [Hlen Hnth].
  assert (HC : exists Cs, mapM f (enumerate orders) = Ok Cs /\ length Cs = length orders /\
     forall k p r t C, nth_error orders k = Some p -> nth_error rs k = Some r -> nth_error taus k = Some t ->
       nth_error Cs k = Some C -> dmat_spec ord r t C).
  { unfold enumerate.
    assert (G : forall l s, (forall i p, nth_error l i = Some p -> nth_error orders (s + i) = Some p) ->
      exists Cs, mapM f (combine (seq s (length l)) l) = Ok Cs /\ length Cs = length l /\
      forall k p r t C, nth_error l k = Some p -> nth_error rs (s + k) = Some r ->
        nth_error taus (s + k) = Some t -> nth_error Cs k = Some C -> dmat_spec ord r t C).
    { induction l as [|p l IH]; intros s Hs.
      - exists []. split; [reflexivity|]. split; [reflexivity|]. intros [|k]; discriminate.
      - destruct (IH (S s)) as (Cs & ECs & HlC & HC).
        { intros i q Hi. specialize (Hs (S i) q Hi). rewrite Nat.add_succ_r in Hs. exact Hs. }
        pose proof (Hs 0%nat p eq_refl) as Hp. rewrite Nat.add_0_r in Hp.
        destruct (Hnth s p Hp) as (r & Hr & _).
        destruct (nth_error taus s) as [t|] eqn:Ht.
        2:{ apply nth_error_None in Ht. assert (s < length orders)%nat by (apply nth_error_Some; congruence). lia. }
        destruct (Hf s p r t Hp Hr Ht) as (C & EC & Hspec).
        exists (C :: Cs). cbn [length seq combine mapM]. rewrite EC. cbn [bind]. rewrite ECs. cbn [bind]. split; [reflexivity|]. split; [cbn; lia|].
        intros [|k] p' r' t' C' H1 H2 H3 H4; cbn in *.
        + rewrite Nat.add_0_r in *. congruence.
        + rewrite Nat.add_succ_r in *. eapply HC; eauto. }
    destruct (G orders 0%nat) as (Cs & ECs & HlC & HCs); [auto|].
    exists Cs. split; [exact ECs|]. split; [exact HlC|]. intros k p r t C. apply (HCs k). }
  destruct HC as (Cs & ECs & HlC & HsC). rewrite ECs. cbn [bind].
  destruct (assemble_interp_ok taus orders Cs HlC ltac:(lia)) as (M & EM & Hr & Hc & Hg).
  { intros k p C t Hp HCk Ht. destruct (Hnth k p Hp) as (r & Hr & _).
    destruct (HsC k p r t C Hp Hr Ht HCk) as (H1 & H2 & _). destruct (Hn k p r Hp Hr) as (_ & Hl & _). lia. }
  exists M. split; [exact EM|]. split; [exact Hr|]. split; [exact Hc|].
  intros k p r t i ys c Hp Hr' Ht Hi [Hcl Hci].
  destruct (Hn k p r Hp Hr') as (_ & Hl & Hnd).
  destruct (nth_error Cs k) as [C|] eqn:HCk.
  2:{ apply nth_error_None in HCk. assert (k < length orders)%nat by (apply nth_error_Some; congruence). lia. }
  pose proof (HsC k p r t C Hp Hr' Ht HCk) as HC.
  rewrite (block_row _ (offset orders k) p _ (fun j => mget C i j) ys).
  - rewrite <- (dmat_exact ord r t C c i Hnd HC Hcl) by lia.
    destruct HC as (_ & HcD & _). rewrite HcD, Hl. apply Rsum_ext. intros j Hj.
    rewrite Hci by lia. reflexivity.
  - apply off_lt_total; auto.
  - intros j. eapply Hg; eauto.
Qed.

Lemma comp_interp_ok cf (taus : list (list R)) orders rs :
  seg_nodes cf orders rs -> length taus = length orders ->
  exists M, comp_interp cf taus orders = Ok M /\
  nr M = offset (map (@length R) taus) (length taus) /\ nc M = total_nodes orders /\
  forall k p r t i ys c, nth_error orders k = Some p -> nth_error rs k = Some r -> nth_error taus k = Some t ->
    (i < length t)%nat -> seg_interp orders k r ys c ->
    Rsum (total_nodes orders) (fun j => mget M (offset (map (@length R) taus) k + i) j * ys j)
    = peval c (nth i t 0).
Proof.
  intros Hs Hl. apply (comp_interp_gen cf taus orders rs 0 _ Hs Hl).
  intros k p r t Hp Hr Ht. destruct Hs as [_ Hn]. destruct (Hn k p r Hp Hr) as (Ec & _ & Hnd).
  unfold at_. nred. rewrite Ht. cbn [bind]. unfold interp_matrix. rewrite Ec. cbn [bind].
  apply interp_matrix_of_ok; auto.
Qed.
Lemma comp_interpD_ok cf (taus : list (list R)) orders rs ord :
  seg_nodes cf orders rs -> length taus = length orders -> (ord = 1 \/ ord = 2)%nat ->
  exists M, comp_interpD cf taus orders ord = Ok M /\
  nr M = offset (map (@length R) taus) (length taus) /\ nc M = total_nodes orders /\
  forall k p r t i ys c, nth_error orders k = Some p -> nth_error rs k = Some r -> nth_error taus k = Some t ->
    (i < length t)%nat -> seg_interp orders k r ys c ->
    Rsum (total_nodes orders) (fun j => mget M (offset (map (@length R) taus) k + i) j * ys j)
    = dform ord c (nth i t 0).
Proof.
  intros Hs Hl Ho. apply (comp_interp_gen cf taus orders rs ord _ Hs Hl).
  intros k p r t Hp Hr Ht. destruct Hs as [_ Hn]. destruct (Hn k p r Hp Hr) as (Ec & _ & Hnd).
  unfold at_. nred. rewrite Ht. cbn [bind]. unfold diff_matrix. rewrite Ec. cbn [bind].
  apply diff_matrix_of_ok; auto.
Qed.

(** ** Composite quadrature *)

Definition ell_int (r : list R) (a b : R) (j : nat) : R :=
  RInt (peval (@lagrange_num Rnum r j)) a b.
Definition wts (a b : R) (r : list R) : list R := map (ell_int r a b) (seq 0 (length r)).

Lemma comp_quad_eq cf orders rs a b : seg_nodes cf orders rs -> orders <> [] ->
  integ_exact (l_integ (cf_lib cf)) ->
  exists w0, nth_error rs 0 = Some w0 /\
  comp_quad cf orders a b = Ok (nth 0 (wts a b w0) 0 :: flat_map (fun r => tl (wts a b r)) rs).
Proof.
  intros [Hrs Hn] Hne Hig.
  assert (E : mapM (fun p => quad_weights cf p a b) orders = Ok (map (wts a b) rs)).
  { clear Hne. revert rs Hrs Hn. induction orders as [|p orders IH]; intros rs Hrs Hn.
    - cbn in *. inversion Hrs. reflexivity.
    - cbn [mapM] in Hrs. destruct (c_roots cf p) as [r|] eqn:Er; [|discriminate]. cbn [bind] in Hrs.
      destruct (mapM (c_roots cf) orders) as [rs'|] eqn:Es; [|discriminate]. cbn [bind] in Hrs.
      inversion Hrs; subst rs. cbn [mapM]. unfold quad_weights at 1. rewrite Er. cbn [bind].
      destruct (Hn 0%nat p r eq_refl eq_refl) as (_ & Hlr & Hnd).
      rewrite quad_weights_of_ok by auto. cbn [bind].
      rewrite (IH rs' eq_refl) by (intros k; apply (Hn (S k))). reflexivity. }
  unfold comp_quad. rewrite E. cbn [bind].
  destruct orders as [|p orders]; [congruence|].
  destruct (mapM_inv _ _ _ Hrs) as [Hlen _]. destruct rs as [|r rs]; [discriminate|].
  exists r. split; [reflexivity|].
  unfold assemble_quad. cbn [map at_ nth_error bind].
  destruct (Hn 0%nat p r eq_refl eq_refl) as (_ & Hlr & _).
  unfold wts at 1. rewrite Hlr. cbn [seq map at_ nth_error bind]. unfold at_. cbn [nth_error bind].
  f_equal. f_equal.
  - unfold wts. rewrite Hlr. reflexivity.
  - cbn. f_equal. clear. induction rs; cbn; [reflexivity|]. rewrite IHrs. reflexivity.
Qed.

(** value of the composite rule: integrals of the segment interpolants, minus the first
    weight of every later segment times the data at its first node *)
Lemma comp_quad_sum a b : forall orders rs,
  (length rs = length orders) ->
  (forall k p r, nth_error orders k = Some p -> nth_error rs k = Some r -> length r = S p /\ NoDup r) ->
  forall (ys : nat -> R) (cs : nat -> list R),
  (forall k r, nth_error rs k = Some r -> seg_interp orders k r ys (cs k)) ->
  let tail := flat_map (fun r => tl (wts a b r)) rs in
  length tail = offset orders (length orders) /\
  Rsum (length tail) (fun j => nth j tail 0 * ys (S j)) =
  Rsum (length orders) (fun k => RInt (peval (cs k)) a b)
  - Rsum (length orders) (fun k => ell_int (nth k rs []) a b 0 * ys (offset orders k)).
Proof.
  induction orders as [|p orders IH]; intros rs Hlen Hn ys cs Hi tail.
  - destruct rs; [|discriminate]. cbn. split; [reflexivity|lra].
  - destruct rs as [|r rs]; [discriminate|].
    destruct (Hn 0%nat p r eq_refl eq_refl) as (Hlr & Hnd).
    specialize (IH rs ltac:(cbn in Hlen; lia)).
    specialize (IH (fun k => Hn (S k))).
    specialize (IH (fun j => ys (p + j)%nat) (fun k => cs (S k))).
    destruct IH as [IHl IHs].
    { intros k r' Hk. destruct (Hi (S k) r' Hk) as [H1 H2]. split; [exact H1|].
      intros j Hj. rewrite (H2 j Hj). f_equal. cbn. lia. }
    assert (Hlw : length (tl (wts a b r)) = p).
    { unfold wts. rewrite Hlr. cbn. rewrite map_length, seq_length. reflexivity. }
    assert (Htl : tail = tl (wts a b r) ++ flat_map (fun r => tl (wts a b r)) rs) by reflexivity.
    split.
    + rewrite Htl, app_length, IHl, Hlw. reflexivity.
    + rewrite Htl, app_length, Rsum_app, Hlw.
      assert (H1 : Rsum p (fun j => nth j (tl (wts a b r) ++ flat_map (fun r => tl (wts a b r)) rs) 0 * ys (S j))
        = RInt (peval (cs 0%nat)) a b - ell_int r a b 0 * ys 0%nat).
      { destruct (Hi 0%nat r eq_refl) as [Hc1 Hc2].
        rewrite <- (weights_exact r (cs 0%nat) a b Hnd Hc1). nred; rewrite Hlr, Rsum_S_l.
        rewrite (Hc2 0%nat ltac:(lia)). cbn [offset]. fold (ell_int r a b 0).
        cbn [Nat.add].
        match goal with |- ?x = ?u + ?v - ?u' => assert (x = v); [|unfold ell_int in *; lra] end.
        apply Rsum_ext. intros j Hj. rewrite app_nth1 by lia.
        rewrite (Hc2 (S j)) by lia. cbn [offset Nat.add]. f_equal.
        unfold wts. rewrite Hlr. cbn [seq map tl].
        rewrite (nth_indep _ 0 (ell_int r a b 0)) by (rewrite map_length, seq_length; auto).
        rewrite map_nth. rewrite seq_nth by auto. reflexivity. }
      rewrite H1. cbn [length]. rewrite !Rsum_S_l.
      erewrite Rsum_ext with (n := length (flat_map (fun r => tl (wts a b r)) rs)).
      2:{ intros j Hj. rewrite app_nth2 by lia. rewrite Hlw.
          replace (p + j - p)%nat with j by lia.
          replace (S (p + j)) with (p + S j)%nat by lia. reflexivity. }
      rewrite IHs. cbn [nth offset]. lra.
Qed.

Lemma wts_tail_length a b : forall orders rs, length rs = length orders ->
  (forall k p r, nth_error orders k = Some p -> nth_error rs k = Some r -> length r = S p) ->
  length (flat_map (fun r => tl (wts a b r)) rs) = offset orders (length orders).
Proof.
  induction orders as [|p orders IH]; intros [|r rs] Hl Hn; try discriminate; [reflexivity|].
  cbn [flat_map offset length]. rewrite app_length, (IH rs).
  - f_equal. unfold wts. rewrite (Hn 0%nat p r eq_refl eq_refl). cbn. rewrite map_length, seq_length. reflexivity.
  - cbn in Hl. lia.
  - intros k. apply (Hn (S k)).
Qed.
Lemma comp_quad_ok cf orders rs a b : seg_nodes cf orders rs -> orders <> [] ->
  integ_exact (l_integ (cf_lib cf)) ->
  exists W, comp_quad cf orders a b = Ok W /\ length W = total_nodes orders /\
  forall ys cs, (forall k r, nth_error rs k = Some r -> seg_interp orders k r ys (cs k)) ->
  Rsum (total_nodes orders) (fun j => nth j W 0 * ys j) =
  Rsum (length orders) (fun k => RInt (peval (cs k)) a b)
  - Rsum (length orders - 1) (fun k => ell_int (nth (S k) rs []) a b 0 * ys (offset orders (S k))).
Proof.
  intros Hs Hne Hig. destruct (comp_quad_eq cf orders rs a b Hs Hne Hig) as (w0 & Hw0 & E).
  destruct Hs as [Hrs Hn]. destruct (mapM_inv _ _ _ Hrs) as [Hlen Hnth].
  assert (Hn' : forall k p r, nth_error orders k = Some p -> nth_error rs k = Some r -> length r = S p /\ NoDup r).
  { intros k p r Hp Hr. destruct (Hn k p r Hp Hr) as (_ & H). exact H. }
  destruct orders as [|p0 orders]; [congruence|].
  destruct rs as [|r0 rs]; [discriminate|]. cbn in Hw0. inversion Hw0; subst w0.
  assert (Hltail : length (flat_map (fun r => tl (wts a b r)) (r0 :: rs)) = offset (p0 :: orders) (length (p0 :: orders)))
    by (apply wts_tail_length; [exact Hlen|]; intros k p r Hp Hr; apply (Hn' k p r Hp Hr)).
  eexists. split; [exact E|]. split.
  - cbn [length]. nred; cbn [length]; rewrite Hltail. unfold total_nodes. lia.
  - intros ys cs Hcs.
    destruct (comp_quad_sum a b (p0 :: orders) (r0 :: rs) Hlen Hn' ys cs Hcs) as [_ Hsum].
    unfold total_nodes. replace (offset (p0 :: orders) (length (p0 :: orders)) + 1)%nat
      with (S (length (flat_map (fun r => tl (wts a b r)) (r0 :: rs)))) by (rewrite Hltail; lia).
    rewrite Rsum_S_l. cbn [nth].
    destruct (Hn' 0%nat p0 r0 eq_refl eq_refl) as [Hl0 _].
    assert (E0 : nth 0 (wts a b r0) 0 = ell_int r0 a b 0) by (unfold wts; rewrite Hl0; reflexivity).
    rewrite E0.
    replace (Rsum _ (fun k => nth k (flat_map _ _) 0 * _)) with
      (Rsum (length (flat_map (fun r => tl (wts a b r)) (r0 :: rs))) (fun j => nth j (flat_map (fun r => tl (wts a b r)) (r0 :: rs)) 0 * ys (S j))) by reflexivity.
    rewrite Hsum. cbn [length]. rewrite Nat.sub_0_r || idtac.
    replace (S (length orders) - 1)%nat with (length orders) by lia.
    rewrite (Rsum_S_l (length orders) (fun k => ell_int _ a b 0 * _)). cbn [nth offset]. lra.
Qed.

(** ** Schemes with the wrong number of nodes *)

Lemma pl_step_bad pl : (exists p, In p pl /\ ~ pl_dims p) -> forall M, exists e, foldM pl_step pl M = Raise e.
Proof.
  induction pl as [|q pl IH]; intros (p & Hin & Hbad) M; [destruct Hin|].
  cbn [foldM]. destruct (pl_step M q) as [M'|e] eqn:E; cbn [bind]; [|eauto].
  apply IH. destruct Hin as [->|Hin]; [|eauto].
  exfalso. destruct p as [[[[r0 h] c0] w] B]. unfold pl_step, set_block in E. cbn in Hbad.
  destruct (Nat.eqb_spec (nr B) h), (Nat.eqb_spec (nc B) w); cbn in E; try discriminate. auto.
Qed.
Lemma basis_matrix_dims (f : poly Rnum -> R -> res R) polys pts M :
  @basis_matrix Rnum f polys pts = Ok M -> nr M = length pts /\ nc M = length polys.
Proof.
  unfold basis_matrix. nred. destruct (mapM _ polys); cbn; [|discriminate]. intros H; inversion H; auto.
Qed.
Lemma assemble_diff_bad orders (Ds : list (mat Rnum)) k p D : length Ds = length orders ->
  nth_error orders k = Some p -> nth_error Ds k = Some D -> nc D <> (p + 1)%nat ->
  exists e, assemble_diff orders Ds = Raise e.
Proof.
  intros Hlen Hp HD Hbad. unfold assemble_diff.
  pose (plc := fun x : nat * (nat * mat Rnum) => let '(i, (p, D)) := x in
     if Nat.eqb i 0 then (0, p + 1, 0, p + 1, D)%nat
     else (offset orders i + 1, p, offset orders i, 1 + p, drop_rows 1 D)%nat : placement).
  rewrite (foldM_ext _ (fun M x => pl_step M (plc x))).
  2:{ intros s [i [q E]] _. cbn. rewrite nsum_firstn. destruct (Nat.eqb i 0); reflexivity. }
  rewrite <- (foldM_map pl_step plc). apply pl_step_bad.
  exists (plc (k, (p, D))). split.
  - apply in_map. eapply nth_error_In. apply nth_error_enumerate, nth_error_combine; eauto.
  - cbn. destruct (Nat.eqb k 0); cbn; lia.
Qed.
Lemma comp_diff_bad (cf : ccfg Rnum) orders ord p : In p orders ->
  (forall r, c_roots cf p = Ok r -> length r <> S p) -> exists e, comp_diff cf orders ord = Raise e.
Proof.
  intros Hin Hbad. unfold comp_diff.
  destruct (mapM (fun p => diff_matrix cf p None ord) orders) as [Ds|e] eqn:E; cbn [bind]; [|eauto].
  destruct (mapM_inv _ _ _ E) as [Hl Hn].
  apply In_nth_error in Hin. destruct Hin as [k Hk]. destruct (Hn k p Hk) as (D & HD & ED).
  eapply assemble_diff_bad; eauto. unfold diff_matrix in ED.
  destruct (c_roots cf p) as [r|] eqn:Er; [|discriminate]. cbn [bind] in ED.
  apply basis_matrix_dims in ED. destruct ED as [_ ->].
  specialize (Hbad r eq_refl). rewrite basis_length. nred. lia.
Qed.
Lemma linspace_length (a b : R) n : length (@linspace Rnum a b n) = n.
Proof.
  destruct n as [|[|n]]; try reflexivity. unfold linspace. nred. rewrite app_length, map_length, seq_length. cbn. lia.
Qed.
Lemma bad_scheme_roots (cf : ccfg Rnum) p (r : list R) : ~ In (cf_scheme cf) ["LGR"; "LGL"; "CGL"]%string -> (2 <= p)%nat ->
  (forall n, length (l_leggauss (cf_lib cf) n) = n) -> c_roots cf p = Ok r -> length r = p.
Proof.
  intros Hs Hp Hg. unfold c_roots, taus_fn.
  destruct (String.eqb_spec (cf_scheme cf) "LG").
  - unfold lg_roots. destruct (Nat.leb_spec p 1); [lia|]. intros HH; inversion HH; subst.
    cbn [length]. unfold scale_roots. nred. rewrite map_length. specialize (Hg (p - 1)%nat). nred. lia.
  - destruct (String.eqb_spec (cf_scheme cf) "LGR") as [E|_]; [exfalso; apply Hs; rewrite E; cbn; auto|].
    destruct (String.eqb_spec (cf_scheme cf) "LGL") as [E|_]; [exfalso; apply Hs; rewrite E; cbn; auto|].
    destruct (String.eqb_spec (cf_scheme cf) "CGL") as [E|_]; [exfalso; apply Hs; rewrite E; cbn; auto|].
    unfold unknown_roots. destruct (Nat.ltb_spec 1 p); [|lia]. intros H1; inversion H1; subst.
    apply linspace_length.
Qed.
Lemma bad_scheme_diff (cf : ccfg Rnum) orders ord p : ~ In (cf_scheme cf) ["LGR"; "LGL"; "CGL"]%string -> (2 <= p)%nat ->
  In p orders -> (forall n, length (l_leggauss (cf_lib cf) n) = n) -> exists e, comp_diff cf orders ord = Raise e.
Proof.
  intros Hs Hp Hin Hg. eapply comp_diff_bad; [exact Hin|].
  intros r Hr. nred. rewrite (bad_scheme_roots cf p r Hs Hp Hg Hr). lia.
Qed.
