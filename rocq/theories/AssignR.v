(** Proofs about problems that are filled in entry by entry (C63). *)
From Coq Require Import Reals ZArith Bool Arith Lia Lra.
From Coq Require Import List.
From Verif Require Import Num PyList Mat Roots Colloc Ocp Transcribe Objects Assign NumR ListR Spec SpecOcp SpecAssign MeshR BlockR OcpR.
Import ListNotations.
Open Scope R_scope.

Lemma foldM_snoc {A S} (f : S -> A -> res S) l x s :
  foldM f (l ++ [x]) s = (s' <- foldM f l s ;; f s' x)%res.
Proof.
  revert s; induction l as [|a l IH]; intros s; cbn.
  - destruct (f s x); reflexivity.
  - destruct (f s a) as [s'|e]; cbn; [apply IH|reflexivity].
Qed.

Lemma position_means n i k : position n i = Ok k <-> means n i k.
Proof.
  unfold position, means. destruct (Z.ltb_spec i 0).
  - destruct (Z.leb_spec 0 (i + Z.of_nat n)), (Z.ltb_spec (i + Z.of_nat n) (Z.of_nat n)); cbn;
      (split; [intros E; try discriminate E; injection E as <-; lia|intros [H2 [E|E]]; try lia; f_equal; lia]).
  - destruct (Z.leb_spec 0 i), (Z.ltb_spec i (Z.of_nat n)); cbn;
      (split; [intros E; try discriminate E; injection E as <-; lia|intros [H2 [E|E]]; try lia; f_equal; lia]).
Qed.
Lemma means_unique n i k k' : means n i k -> means n i k' -> k = k'.
Proof. intros [H1 H2] [H3 H4]. lia. Qed.
Lemma length_set_nth {A} (l : list A) k x : length (set_nth l k x) = length l.
Proof. revert k; induction l as [|a l IH]; intros [|k]; cbn; auto. Qed.
Lemma nth_set_same {A} (l : list A) k x d : (k < length l)%nat -> nth k (set_nth l k x) d = x.
Proof. revert k; induction l as [|a l IH]; intros [|k] H; cbn in *; try lia; auto. apply IH. lia. Qed.
Lemma nth_set_other {A} (l : list A) k j x d : j <> k -> nth j (set_nth l k x) d = nth j l d.
Proof.
  revert k j; induction l as [|a l IH]; intros [|k] [|j] H; cbn; auto; congruence.
Qed.

(** ** Cutting to integers *)
Lemma cut_trunc x : cut x (Rtrunc x).
Proof.
  unfold cut, Rtrunc. destruct (Rle_dec 0 x) as [H|H].
  - destruct (base_Int_part x) as [B1 B2]. assert (0 <= Int_part x)%Z.
    { destruct (Z_lt_le_dec (Int_part x) 0) as [C|C]; [|exact C]. exfalso.
      assert (IZR (Int_part x) <= -1) by (apply IZR_le; lia). lra. }
    assert (0 <= IZR (Int_part x)) by (apply IZR_le; lia).
    rewrite !Rabs_pos_eq by lra. repeat split; try lra. apply Rmult_le_pos; lra.
  - rewrite opp_IZR. destruct (base_Int_part (- x)) as [B1 B2]. assert (0 <= Int_part (- x))%Z.
    { destruct (Z_lt_le_dec (Int_part (- x)) 0) as [C|C]; [|exact C]. exfalso.
      assert (IZR (Int_part (- x)) <= -1) by (apply IZR_le; lia). lra. }
    assert (0 <= IZR (Int_part (- x))) by (apply IZR_le; lia).
    rewrite Rabs_Ropp, (Rabs_pos_eq (IZR _)), (Rabs_left1 x) by lra.
    repeat split; try lra.
    + apply Rabs_def1; lra.
    + replace (x * - IZR (Int_part (- x))) with ((- x) * IZR (Int_part (- x))) by ring. apply Rmult_le_pos; lra.
Qed.
Lemma cut_unique x k k' : cut x k -> cut x k' -> k = k'.
Proof.
  assert (W : forall k k', cut x k -> cut x k' -> (k <= k')%Z).
  { intros a b (A1 & A2 & A3) (B1 & B2 & B3). apply Rabs_def2 in A2. apply Rabs_def2 in B2.
    destruct (Z_lt_le_dec b a) as [C|C]; [exfalso|exact C].
    assert (IZR b + 1 <= IZR a) by (replace 1 with (IZR 1) by reflexivity; rewrite <- plus_IZR; apply IZR_le; lia).
    destruct (Rle_dec 0 x) as [Hx|Hx].
    - rewrite (Rabs_pos_eq x) in A1, B1 by lra. pose proof (Rle_abs (IZR a)) as Ha. destruct (Req_dec x 0) as [E0|E0].
      + pose proof (Rle_abs (- IZR b)) as Hb. rewrite Rabs_Ropp in Hb. lra.
      + assert (0 <= IZR b); [|lra].
        destruct (Rle_dec 0 (IZR b)) as [D|D]; [exact D|]. exfalso. assert (0 < x * (- IZR b)) by (apply Rmult_lt_0_compat; lra). lra.
    - rewrite (Rabs_left x) in A1, B1 by lra. pose proof (Rle_abs (- IZR b)) as Hb. rewrite Rabs_Ropp in Hb.
      assert (IZR a <= 0); [|lra].
      destruct (Rle_dec (IZR a) 0) as [D|D]; [exact D|]. exfalso. assert (0 < - x * IZR a) by (apply Rmult_lt_0_compat; lra). lra. }
  intros A B. apply Z.le_antisymm; auto.
Qed.
Lemma to_int_spec (v : ext R) : match to_int (N := Rnum) v with
  | Ok k => exists x, v = Fin x /\ cut x k /\ (- 2 ^ 63 <= k < 2 ^ 63)%Z
  | Raise _ => ~ fits_int v
  end.
Proof.
  destruct v as [|x| |]; cbn [to_int]; try (intros (x & k & E & _); discriminate).
  change (ntrunc (n := Rnum) x) with (Rtrunc x). pose proof (cut_trunc x) as C.
  destruct (Z.leb_spec (- 2 ^ 63) (Rtrunc x)), (Z.ltb_spec (Rtrunc x) (2 ^ 63)); cbn [andb];
    try (exists x; repeat split; auto; apply C); intros (x' & k & E & C' & B); injection E as <-;
    pose proof (cut_unique _ _ _ C C'); subst; lia.
Qed.

(** ** Writing an entry *)
Lemma put_spec {A} (l : list A) i x l' d : put l i x = Ok l' ->
  exists k, means (length l) i k /\ length l' = length l /\ nth k l' d = x /\ forall j, j <> k -> nth j l' d = nth j l d.
Proof.
  unfold put. destruct (position (length l) i) as [k|] eqn:E; [|discriminate]. cbn. intros H. injection H as <-.
  apply position_means in E. exists k. split; [exact E|]. split; [apply length_set_nth|].
  split; [apply nth_set_same, E|]. intros; apply nth_set_other; auto.
Qed.
Lemma put_int_spec {A} (l : list A) i (v : ext R) g l' d : put_int (N := Rnum) l i v g = Ok l' ->
  exists k n x, means (length l) i k /\ v = Fin x /\ cut x n /\ length l' = length l /\ nth k l' d = g n /\
    forall j, j <> k -> nth j l' d = nth j l d.
Proof.
  unfold put_int. destruct (position (length l) i) as [k|] eqn:E; [|discriminate]. cbn [bind].
  pose proof (to_int_spec v) as T. destruct (to_int v) as [n|] eqn:En; [|discriminate]. cbn [bind]. intros H. injection H as <-.
  destruct T as (x & Ev & C & _). apply position_means in E. exists k, n, x. split; [exact E|]. split; [exact Ev|]. split; [exact C|].
  split; [apply length_set_nth|]. split; [apply nth_set_same, E|]. intros; apply nth_set_other; auto.
Qed.
Lemma put_row_spec {T} (m : list (list T)) i (v : rowval T) m' w d : put_row m i v = Ok m' ->
  (forall row, In row m -> length row = w) ->
  exists k, means (length m) i k /\ length m' = length m /\ (forall row, In row m' -> length row = w) /\
    (forall c, (c < w)%nat -> (exists e, row_gives w v c e /\ nth c (nth k m' []) d = e) \/
       (nth c (nth k m' []) d = nth c (nth k m []) d /\ forall e, ~ row_gives w v c e)) /\
    forall j, j <> k -> nth j m' [] = nth j m [].
Proof.
  unfold put_row. intros H Hw. destruct (position (length m) i) as [k|] eqn:E; [|discriminate]. cbn [bind] in H.
  apply position_means in E. unfold at_ in H. destruct (nth_error m k) as [row|] eqn:Er; [|discriminate]. cbn [bind] in H.
  assert (Hr : length row = w) by (apply Hw; eapply nth_error_In; eauto).
  assert (Hn0 : nth k m [] = row) by (apply nth_error_nth; exact Er).
  assert (W : forall new, m' = set_nth m k new -> length new = w ->
     (forall c, (c < w)%nat -> (exists e, row_gives w v c e /\ nth c new d = e) \/ (nth c new d = nth c row d /\ forall e, ~ row_gives w v c e)) ->
     exists k, means (length m) i k /\ length m' = length m /\ (forall row, In row m' -> length row = w) /\
       (forall c, (c < w)%nat -> (exists e, row_gives w v c e /\ nth c (nth k m' []) d = e) \/
          (nth c (nth k m' []) d = nth c (nth k m []) d /\ forall e, ~ row_gives w v c e)) /\
       forall j, j <> k -> nth j m' [] = nth j m []).
  { intros new -> Hn Hs. exists k. split; [exact E|]. split; [apply length_set_nth|].
    split; [|split; [rewrite nth_set_same by apply E; rewrite Hn0; exact Hs|intros; apply nth_set_other; auto]].
    intros r Hr'. apply (In_nth _ _ []) in Hr'. destruct Hr' as (j & Hj & <-). rewrite length_set_nth in Hj.
    destruct (Nat.eq_dec j k) as [->|Hd]; [rewrite nth_set_same by auto; exact Hn|].
    rewrite nth_set_other by auto. apply Hw, nth_In, Hj. }
  destruct v as [a|l|j a].
  - injection H as <-. eapply W; [reflexivity|rewrite repeat_length; exact Hr|]. intros c Hc. left. exists a.
    split; [reflexivity|]. apply nth_repeat_in. lia.
  - assert (Hl : (exists a, l = [a] /\ m' = set_nth m k (repeat a (length row))) \/ (length l = length row /\ m' = set_nth m k l)).
    { destruct l as [|a [|b l]].
      - right. destruct (Nat.eqb_spec (length (A := T) []) (length row)); [|discriminate]. injection H as <-. auto.
      - left. exists a. split; [reflexivity|]. injection H as <-. reflexivity.
      - right. destruct (Nat.eqb_spec (length (a :: b :: l)) (length row)); [|discriminate]. injection H as <-. auto. }
    destruct Hl as [(a & -> & Em)|[El Em]].
    + eapply W; [exact Em|rewrite repeat_length; exact Hr|]. intros c Hc. left. exists a. split; [right; reflexivity|].
      apply nth_repeat_in. lia.
    + eapply W; [exact Em|congruence|]. intros c Hc. left. exists (nth c l d). split; [|reflexivity]. left.
      split; [congruence|]. apply nth_error_nth'. lia.
  - destruct (put row j a) as [new|] eqn:Ep; [|discriminate]. cbn [bind] in H. injection H as <-.
    destruct (put_spec _ _ _ _ d Ep) as (q & Q1 & Q2 & Q3 & Q4). rewrite Hr in Q1.
    eapply W; [reflexivity|congruence|]. intros c Hc. destruct (Nat.eq_dec c q) as [->|Hd].
    + left. exists a. split; [split; [exact Q1|reflexivity]|exact Q3].
    + right. split; [apply Q4; exact Hd|]. intros e [Hm _]. apply Hd. eapply means_unique; eauto.
Qed.

(** ** The value given last *)
Section Track.
Context {V A : Type}.
Variables (get : ocp Rnum -> list A) (n : nat) (G : assign Rnum -> Z -> V -> Prop) (R0 : V -> A -> Prop) (d : A) (I0 : list A -> Prop).
Hypothesis Gf : forall x i v i' v', G x i v -> G x i' v' -> i = i' /\ v = v'.
Hypothesis step : forall o x o', I0 (get o) -> run_assign o x = Ok o' -> I0 (get o') /\
  ((exists i v k, G x i v /\ means n i k /\ R0 v (nth k (get o') d) /\ forall j, j <> k -> nth j (get o') d = nth j (get o) d) \/
   (get o' = get o /\ forall i v, ~ G x i v)).
Lemma track o0 l o : I0 (get o0) -> foldM run_assign l o0 = Ok o ->
  I0 (get o) /\ forall k, comes_to (fun x v => exists i, G x i v /\ means n i k) l R0 (nth k (get o0) d) (nth k (get o) d).
Proof.
  intros H0. revert o. induction l as [|x l IH] using rev_ind; intros o H.
  - cbn in H. injection H as <-. split; [exact H0|]. intros k. right. split; [intros y w []|reflexivity].
  - rewrite foldM_snoc in H. destruct (foldM run_assign l o0) as [o1|] eqn:E; [|discriminate]. cbn [bind] in H.
    destruct (IH o1 eq_refl) as [I1 T1]. destruct (step o1 x o I1 H) as [I2 S]. split; [exact I2|]. intros k.
    assert (Old : nth k (get o) d = nth k (get o1) d -> (forall i v, G x i v -> ~ means n i k) ->
      comes_to (fun x v => exists i, G x i v /\ means n i k) (l ++ [x]) R0 (nth k (get o0) d) (nth k (get o) d)).
    { intros En Hn. rewrite En. destruct (T1 k) as [(v & (l1 & y & l2 & El & P1 & P2) & Hr)|[Hnv Hd]].
      - left. exists v. split; [|exact Hr]. exists l1, y, (l2 ++ [x]). split; [rewrite El, <- app_assoc; reflexivity|].
        split; [exact P1|]. intros z w Hz. apply in_app_or in Hz. destruct Hz as [Hz|[<-|[]]]; [apply P2; exact Hz|].
        intros (i & Hg & Hm). exact (Hn _ _ Hg Hm).
      - right. split; [|exact Hd]. intros z w Hz. apply in_app_or in Hz. destruct Hz as [Hz|[<-|[]]]; [apply Hnv; exact Hz|].
        intros (i & Hg & Hm). exact (Hn _ _ Hg Hm). }
    destruct S as [(i & v & k' & Hg & Hm & Hr & Ho)|[Eo Hn]].
    + destruct (Nat.eq_dec k k') as [->|Hd].
      * left. exists v. split; [|exact Hr]. exists l, x, []. split; [reflexivity|]. split; [exists i; auto|]. intros y w [].
      * apply Old; [apply Ho; exact Hd|]. intros i' v' Hg' Hm'. destruct (Gf _ _ _ _ _ Hg Hg') as [<- _].
        apply Hd. eapply means_unique; eauto.
    + apply Old; [rewrite Eo; reflexivity|]. intros i v Hg. destruct (Hn _ _ Hg).
Qed.
End Track.

Lemma nth_repeat2 {A} (v : A) w n k c d : (k < n)%nat -> (c < w)%nat -> nth c (nth k (repeat (repeat v w) n) []) d = v.
Proof. intros Hk Hc. rewrite (nth_repeat_in (A := list A)) by exact Hk. apply nth_repeat_in. exact Hc. Qed.
(** one cell *)
Lemma track1 {A} (get : ocp Rnum -> A) (P : assign Rnum -> A -> Prop) (I0 : ocp Rnum -> Prop) :
  (forall o x o', I0 o -> run_assign o x = Ok o' -> I0 o' /\ ((exists v, P x v /\ get o' = v) \/ (get o' = get o /\ forall v, ~ P x v))) ->
  forall o0 l o, I0 o0 -> foldM run_assign l o0 = Ok o -> I0 o /\ comes_to P l eq (get o0) (get o).
Proof.
  intros step o0 l o H0. revert o. induction l as [|x l IH] using rev_ind; intros o H.
  - cbn in H. injection H as <-. split; [exact H0|]. right. split; [intros y w []|reflexivity].
  - rewrite foldM_snoc in H. destruct (foldM run_assign l o0) as [o1|] eqn:E; [|discriminate]. cbn [bind] in H.
    destruct (IH o1 eq_refl) as [I1 T1]. destruct (step o1 x o I1 H) as [I2 S]. split; [exact I2|].
    destruct S as [(v & Hp & Eg)|[Eo Hn]].
    + left. exists v. split; [|auto]. exists l, x, []. split; [reflexivity|]. split; [exact Hp|]. intros y w [].
    + rewrite Eo. destruct T1 as [(v & (l1 & y & l2 & El & P1 & P2) & Hr)|[Hnv Hd]].
      * left. exists v. split; [|exact Hr]. exists l1, y, (l2 ++ [x]). split; [rewrite El, <- app_assoc; reflexivity|].
        split; [exact P1|]. intros z w Hz. apply in_app_or in Hz. destruct Hz as [Hz|[<-|[]]]; [apply P2; exact Hz|apply Hn].
      * right. split; [|exact Hd]. intros z w Hz. apply in_app_or in Hz. destruct Hz as [Hz|[<-|[]]]; [apply Hnv; exact Hz|apply Hn].
Qed.

(** ** Every attribute *)
Ltac inv_assign H :=
  match type of H with
  | bind ?m _ = Ok _ => let E := fresh "E" in destruct m eqn:E; [|discriminate H]; cbn [bind] in H; injection H as <-
  | Ok _ = Ok _ => injection H as <-
  end.
Ltac cases x := destruct x as [? ? ?|? ? ?|? ? ?|? ? ?|? ?|? ?|? ?|? ?|? ?|?|?|?|?]; try match goal with a : gattr |- _ => destruct a | a : battr |- _ => destruct a | a : iattr |- _ => destruct a | a : dattr |- _ => destruct a end.

Section Build.
Variables (nx nu nph na : nat) (l : list (assign Rnum)) (o : ocp Rnum).
Hypothesis Hb : build nx nu nph na l = Ok o.
Lemma build_inv : exists m o0, nph = S m /\ new_ocp nx nu nph na = Ok o0 /\ foldM run_assign l o0 = Ok o.
Proof.
  unfold build in Hb. destruct (new_ocp nx nu nph na) as [o0|] eqn:E; [|discriminate]. cbn [bind] in Hb.
  destruct nph as [|m]; [discriminate E|]. exists m, o0. auto.
Qed.
Lemma built_dims : o_nx o = nx /\ o_nu o = nu /\ o_na o = na /\ o_nph o = nph /\ (1 <= nph)%nat /\
  o_links o = map (fun i => (i, S i)) (seq 0 (nph - 1)).
Proof.
  destruct build_inv as (m & o0 & -> & E0 & E). clear Hb.
  assert (D0 : o_nx o0 = nx /\ o_nu o0 = nu /\ o_na o0 = na /\ o_nph o0 = S m /\ o_links o0 = map (fun i => (i, S i)) (seq 0 (S m - 1))).
  { cbn in E0. injection E0 as <-. cbn. repeat split. rewrite Nat.sub_0_r. apply map_ext. intros i. f_equal. lia. }
  clear E0. revert o E. induction l as [|x l' IH] using rev_ind; intros o1 H.
  - cbn in H. injection H as <-. destruct D0 as (A & B & C & D & F). repeat split; auto. lia.
  - rewrite foldM_snoc in H. destruct (foldM run_assign l' o0) as [o2|] eqn:E; [|discriminate]. cbn [bind] in H.
    specialize (IH o2 eq_refl). cases x; cbn [run_assign] in H; inv_assign H; exact IH.
Qed.

Lemma built_bound a : length (bound o a) = brows nph a /\ (forall row, In row (bound o a) -> length row = bwidth nx nu na a) /\
  forall k c, (k < brows nph a)%nat -> (c < bwidth nx nu na a)%nat ->
    comes_to (gives_bound nx nu nph na a k c) l eq (bdefault a k) (nth c (nth k (bound o a) []) NaN).
Proof.
  destruct build_inv as (m & o0 & E1 & E0 & E). clear Hb. subst nph.
  set (w := bwidth nx nu na a) in *.
  assert (I0 : length (bound o0 a) = brows (S m) a /\ forall row, In row (bound o0 a) -> length row = w).
  { subst w. cbn in E0. injection E0 as <-.
    destruct a; cbn; rewrite ?repeat_length; (split; [reflexivity|]); intros row Hr;
      try (destruct Hr as [<-|Hr]; [cbn; rewrite ?repeat_length; reflexivity|]); apply repeat_spec in Hr; subst row; cbn; rewrite ?repeat_length; reflexivity. }
  assert (T : forall k c, (c < w)%nat ->
    (length (bound o a) = brows (S m) a /\ forall row, In row (bound o a) -> length row = w) /\
    comes_to (gives_bound nx nu (S m) na a k c) l eq (nth c (nth k (bound o0 a) []) NaN) (nth c (nth k (bound o a) []) NaN)).
  { intros k c Hc. refine (track1 (fun o => nth c (nth k (bound o a) []) NaN) _ (fun o => length (bound o a) = brows (S m) a /\ forall row, In row (bound o a) -> length row = w) _ o0 l o I0 E).
    intros o1 x o2 [H1 H2] H.
    assert (This : (exists i v, x = SetBound a i v /\ put_row (bound o1 a) i v = Ok (bound o2 a)) \/
                   (bound o2 a = bound o1 a /\ forall i v, x <> SetBound a i v)).
    { clear H1 H2. destruct x as [b i v|b i v|b i v|b i v|i f|i f|i f|i f|i f|l'|l'|l'|s];
        try (right; destruct a; try destruct b; cbn [run_assign] in H; inv_assign H; (split; [reflexivity|discriminate])).
      destruct a, b; cbn [run_assign] in H; inv_assign H;
        first [right; split; [reflexivity|discriminate] | left; exists i, v; split; [reflexivity|assumption]]. }
    destruct This as [(i & v & Ex & Ep)|[Eq Hn]].
    2:{ rewrite Eq. split; [auto|]. right. split; [reflexivity|]. intros e (i & v & Ex & _). exact (Hn i v Ex). }
    destruct (put_row_spec _ _ _ _ _ NaN Ep H2) as (q & K1 & K2 & K3 & K4 & K5). rewrite H1 in K1.
    split; [split; [congruence|exact K3]|]. destruct (Nat.eq_dec k q) as [->|Hd].
    - destruct (K4 c Hc) as [(e & Hg & He)|[He Hg]].
      + left. exists e. split; [|exact He]. exists i, v. auto.
      + right. split; [exact He|]. intros e (i' & v' & Ex' & _ & Hg'). rewrite Ex in Ex'. injection Ex' as <- <-. exact (Hg e Hg').
    - right. split; [rewrite K5 by exact Hd; reflexivity|]. intros e (i' & v' & Ex' & Hm & _). rewrite Ex in Ex'. injection Ex' as <- <-.
      apply Hd. eapply means_unique; eauto. }
  assert (T0 : length (bound o a) = brows (S m) a /\ forall row, In row (bound o a) -> length row = w).
  { destruct w as [|w'] eqn:Ew; [|apply (T 0%nat 0%nat); lia].
    refine (proj1 (track1 (fun _ => tt) (fun _ _ => False) (fun o => length (bound o a) = brows (S m) a /\ forall row, In row (bound o a) -> length row = 0%nat) _ o0 l o I0 E)).
    intros o1 x o2 [H1 H2] H. split; [|right; split; [reflexivity|intros _ []]].
    assert (This : (exists i v, put_row (bound o1 a) i v = Ok (bound o2 a)) \/ bound o2 a = bound o1 a).
    { clear H1 H2. destruct x as [b i v|b i v|b i v|b i v|i f|i f|i f|i f|i f|l'|l'|l'|s];
        try (right; destruct a; try destruct b; cbn [run_assign] in H; inv_assign H; reflexivity).
      destruct a, b; cbn [run_assign] in H; inv_assign H; first [right; reflexivity | left; exists i, v; assumption]. }
    destruct This as [(i & v & Ep)|Eq]; [|rewrite Eq; auto].
    destruct (put_row_spec _ _ _ _ _ NaN Ep H2) as (q & K1 & K2 & K3 & _). split; [congruence|exact K3]. }
  split; [apply T0|]. split; [apply T0|]. intros k c Hk Hc. destruct (T k c Hc) as [_ C].
  replace (bdefault a k) with (nth c (nth k (bound o0 a) []) NaN); [exact C|].
  unfold new_ocp in E0. injection E0 as <-. subst w. clear - Hk Hc.
  destruct a; cbn [bound bwidth bdefault o_lbx o_ubx o_lbu o_ubu o_lba o_uba o_lbt0 o_ubt0 o_lbtf o_ubtf o_lbe o_ube brows] in *;
    first [exact (nth_repeat2 _ _ (S m) k c NaN Hk Hc)|exact (nth_repeat2 _ _ (S m - 1) k c NaN Hk Hc)|idtac].
  destruct k as [|k]; [destruct c; [reflexivity|lia]|]. cbn [nth Nat.eqb].
  rewrite (nth_repeat_in (A := list (ext R))) by lia. destruct c; [reflexivity|lia].
Qed.

Lemma built_guess a : length (guess o a) = nph /\ (forall row, In row (guess o a) -> length row = gwidth nx nu na a) /\
  forall k c, (k < nph)%nat -> (c < gwidth nx nu na a)%nat ->
    comes_to (gives_guess nx nu nph na a k c) l eq (gdefault a) (nth c (nth k (guess o a) []) 0).
Proof.
  destruct build_inv as (m & o0 & E1 & E0 & E). clear Hb. subst nph.
  set (w := gwidth nx nu na a) in *.
  assert (I0 : length (guess o0 a) = S m /\ forall row, In row (guess o0 a) -> length row = w).
  { subst w. cbn in E0. injection E0 as <-.
    destruct a; cbn; rewrite ?repeat_length; (split; [reflexivity|]); intros row Hr;
      (destruct Hr as [<-|Hr]; [cbn; rewrite ?repeat_length; reflexivity|]); apply repeat_spec in Hr; subst row; cbn; rewrite ?repeat_length; reflexivity. }
  assert (This : forall o1 x o2, run_assign o1 x = Ok o2 -> (exists i v, x = SetGuess a i v /\ put_row (guess o1 a) i v = Ok (guess o2 a)) \/
                   (guess o2 a = guess o1 a /\ forall i v, x <> SetGuess a i v)).
  { clear. intros o1 x o2 H. destruct x as [b i v|b i v|b i v|b i v|i f|i f|i f|i f|i f|l'|l'|l'|s];
      try (right; destruct a; try destruct b; cbn [run_assign] in H; inv_assign H; (split; [reflexivity|discriminate])).
    destruct a, b; cbn [run_assign] in H; inv_assign H;
      first [right; split; [reflexivity|discriminate] | left; exists i, v; split; [reflexivity|assumption]]. }
  assert (T : forall k c, (c < w)%nat ->
    (length (guess o a) = S m /\ forall row, In row (guess o a) -> length row = w) /\
    comes_to (gives_guess nx nu (S m) na a k c) l eq (nth c (nth k (guess o0 a) []) 0) (nth c (nth k (guess o a) []) 0)).
  { intros k c Hc. refine (track1 (fun o => nth c (nth k (guess o a) []) 0) _ (fun o => length (guess o a) = S m /\ forall row, In row (guess o a) -> length row = w) _ o0 l o I0 E).
    intros o1 x o2 [H1 H2] H. destruct (This _ _ _ H) as [(i & v & Ex & Ep)|[Eq Hn]].
    2:{ rewrite Eq. split; [auto|]. right. split; [reflexivity|]. intros e (i & v & Ex & _). exact (Hn i v Ex). }
    destruct (put_row_spec _ _ _ _ _ 0 Ep H2) as (q & K1 & K2 & K3 & K4 & K5). rewrite H1 in K1.
    split; [split; [congruence|exact K3]|]. destruct (Nat.eq_dec k q) as [->|Hd].
    - destruct (K4 c Hc) as [(e & Hg & He)|[He Hg]].
      + left. exists e. split; [|exact He]. exists i, v. auto.
      + right. split; [exact He|]. intros e (i' & v' & Ex' & _ & Hg'). rewrite Ex in Ex'. injection Ex' as <- <-. exact (Hg e Hg').
    - right. split; [rewrite K5 by exact Hd; reflexivity|]. intros e (i' & v' & Ex' & Hm & _). rewrite Ex in Ex'. injection Ex' as <- <-.
      apply Hd. eapply means_unique; eauto. }
  assert (T0 : length (guess o a) = S m /\ forall row, In row (guess o a) -> length row = w).
  { refine (proj1 (track1 (fun _ => tt) (fun _ _ => False) (fun o => length (guess o a) = S m /\ forall row, In row (guess o a) -> length row = w) _ o0 l o I0 E)).
    intros o1 x o2 [H1 H2] H. split; [|right; split; [reflexivity|intros _ []]].
    destruct (This _ _ _ H) as [(i & v & Ex & Ep)|[Eq _]]; [|rewrite Eq; auto].
    destruct (put_row_spec _ _ _ _ _ 0 Ep H2) as (q & K1 & K2 & K3 & _). split; [congruence|exact K3]. }
  split; [apply T0|]. split; [apply T0|]. intros k c Hk Hc. destruct (T k c Hc) as [_ C].
  replace (gdefault a) with (nth c (nth k (guess o0 a) []) 0); [exact C|].
  unfold new_ocp in E0. injection E0 as <-. subst w. clear - Hk Hc.
  destruct a; cbn [guess gwidth gdefault o_x00 o_xf0 o_u00 o_uf0 o_t00 o_tf0 o_a0] in *;
    exact (nth_repeat2 _ _ (S m) k c 0 Hk Hc).
Qed.

Lemma built_switch a : length (switch o a) = nph /\
  forall k, (k < nph)%nat -> comes_to (gives_switch nph a k) l kept_switch (idefault a) (nth k (switch o a) false).
Proof.
  destruct build_inv as (m & o0 & E1 & E0 & E). clear Hb. subst nph.
  destruct (track (fun o => switch o a) (S m) (fun x i v => x = SetSwitch a i v) kept_switch false
    (fun t => length t = S m)) with (o0 := o0) (l := l) (o := o) as [A C].
  - intros x i v i' v' -> H. injection H as <- <-. auto.
  - intros o1 x o2 H1 H.
    assert (This : (exists i v, x = SetSwitch a i v /\ put_int (N := Rnum) (switch o1 a) i v (fun k => negb (k =? 0)%Z) = Ok (switch o2 a)) \/
                   (switch o2 a = switch o1 a /\ forall i v, x <> SetSwitch a i v)).
    { clear H1. destruct x as [b i v|b i v|b i v|b i v|i f|i f|i f|i f|i f|l'|l'|l'|s];
        try (right; destruct a; try destruct b; cbn [run_assign] in H; inv_assign H; (split; [reflexivity|discriminate])).
      destruct a, b; cbn [run_assign] in H; inv_assign H;
        first [right; split; [reflexivity|discriminate] | left; exists i, v; split; [reflexivity|assumption]]. }
    destruct This as [(i & v & Ex & Ep)|[Eq Hn]]; [|split; [rewrite Eq; auto|right; auto]].
    destruct (put_int_spec _ _ _ _ _ false Ep) as (k & n & x0 & K1 & K2 & K3 & K4 & K5 & K6). rewrite H1 in K1.
    split; [congruence|]. left. exists i, v, k. split; [exact Ex|]. split; [exact K1|]. split; [|exact K6]. exists x0, n. auto.
  - cbn in E0. injection E0 as <-. destruct a; cbn; rewrite ?repeat_length; reflexivity.
  - exact E.
  - split; [exact A|]. intros k Hk. specialize (C k). cbn beta in C.
    replace (idefault a) with (nth k (switch o0 a) false); [exact C|].
    unfold new_ocp in E0. injection E0 as <-. clear - Hk.
    destruct a; cbn [switch o_diff_u o_midu o_ducont];
      (destruct k as [|k]; cbn; [reflexivity|]; rewrite nth_repeat_in by lia; reflexivity).
Qed.

Lemma built_slope a : length (slope o a) = nph /\
  forall k, (k < nph)%nat -> comes_to (gives_slope nph a k) l kept_slope (Fin (ddefault a)) (nth k (slope o a) NaN).
Proof.
  destruct build_inv as (m & o0 & E1 & E0 & E). clear Hb. subst nph.
  destruct (track (fun o => slope o a) (S m) (fun x i v => x = SetSlope a i v) kept_slope NaN
    (fun t => length t = S m)) with (o0 := o0) (l := l) (o := o) as [A C].
  - intros x i v i' v' -> H. injection H as <- <-. auto.
  - intros o1 x o2 H1 H.
    assert (This : (exists i v, x = SetSlope a i v /\ put_int (N := Rnum) (slope o1 a) i v (fun k => Fin (nofZ (N := Rnum) k)) = Ok (slope o2 a)) \/
                   (slope o2 a = slope o1 a /\ forall i v, x <> SetSlope a i v)).
    { clear H1. destruct x as [b i v|b i v|b i v|b i v|i f|i f|i f|i f|i f|l'|l'|l'|s];
        try (right; destruct a; try destruct b; cbn [run_assign] in H; inv_assign H; (split; [reflexivity|discriminate])).
      destruct a, b; cbn [run_assign] in H; inv_assign H;
        first [right; split; [reflexivity|discriminate] | left; exists i, v; split; [reflexivity|assumption]]. }
    destruct This as [(i & v & Ex & Ep)|[Eq Hn]]; [|split; [rewrite Eq; auto|right; auto]].
    destruct (put_int_spec _ _ _ _ _ NaN Ep) as (k & n & x0 & K1 & K2 & K3 & K4 & K5 & K6). rewrite H1 in K1.
    split; [congruence|]. left. exists i, v, k. split; [exact Ex|]. split; [exact K1|]. split; [|exact K6]. exists x0, n.
    split; [exact K2|]. split; [exact K3|]. rewrite K5. f_equal. apply nofZ_R.
  - cbn in E0. injection E0 as <-. destruct a; cbn; rewrite ?repeat_length; reflexivity.
  - exact E.
  - split; [exact A|]. intros k Hk. specialize (C k). cbn beta in C.
    replace (Fin (ddefault a)) with (nth k (slope o0 a) NaN); [exact C|].
    unfold new_ocp in E0. injection E0 as <-. clear - Hk.
    destruct a; (destruct k as [|k]; cbn [slope o_lbdu o_ubdu nth ddefault]; [|rewrite nth_repeat_in by lia]); f_equal; lra.
Qed.

Lemma built_dynamics : length (o_dyn o) = nph /\
  forall k, (k < nph)%nat -> forall d, comes_to (gives_dynamics nph k) l (@eq (dyn_fn (N := Rnum))) (fun _ _ _ _ => Ok (repeat 0 nx)) (nth k (o_dyn o) d).
Proof.
  destruct build_inv as (m & o0 & E1 & E0 & E). clear Hb. subst nph.
  assert (T : forall d, length (o_dyn o) = S m /\ forall k, comes_to (gives_dynamics (S m) k) l (@eq (dyn_fn (N := Rnum))) (nth k (o_dyn o0) d) (nth k (o_dyn o) d)).
  { intros d. apply (track (fun o => o_dyn o) (S m) (fun x i v => x = SetDynamics i v) eq d (fun t => length t = S m)).
    - intros x i v i' v' -> H. injection H as <- <-. auto.
    - intros o1 x o2 H1 H.
      assert (This : (exists i v, x = SetDynamics i v /\ put (o_dyn o1) i v = Ok (o_dyn o2)) \/ (o_dyn o2 = o_dyn o1 /\ forall i v, x <> SetDynamics i v)).
      { clear H1. destruct x as [b i v|b i v|b i v|b i v|i f|i f|i f|i f|i f|l'|l'|l'|s];
          try (right; try destruct b; cbn [run_assign] in H; inv_assign H; (split; [reflexivity|discriminate])).
        cbn [run_assign] in H; inv_assign H. left. exists i, f. split; [reflexivity|assumption]. }
      destruct This as [(i & v & Ex & Ep)|[Eq Hn]]; [|split; [rewrite Eq; auto|right; auto]].
      destruct (put_spec _ _ _ _ d Ep) as (k & K1 & K2 & K3 & K4). rewrite H1 in K1.
      split; [congruence|]. left. exists i, v, k. auto.
    - unfold new_ocp in E0. injection E0 as <-. cbn. rewrite repeat_length. reflexivity.
    - exact E. }
  split; [exact (proj1 (T (fun _ _ _ _ => Ok (repeat 0 nx))))|]. intros k Hk d. pose proof (proj2 (T d) k) as C.
  match goal with |- comes_to _ _ _ ?a _ => replace a with (nth k (o_dyn o0) d); [exact C|] end.
  unfold new_ocp in E0. injection E0 as <-. destruct k as [|k]; cbn; [reflexivity|]. rewrite nth_repeat_in by lia. reflexivity.
Qed.

Lemma built_path : length (o_path o) = nph /\
  forall k, (k < nph)%nat -> forall d, comes_to (gives_path nph k) l (@eq (path_fn (N := Rnum))) (fun _ _ _ _ => Ok None) (nth k (o_path o) d).
Proof.
  destruct build_inv as (m & o0 & E1 & E0 & E). clear Hb. subst nph.
  assert (T : forall d, length (o_path o) = S m /\ forall k, comes_to (gives_path (S m) k) l (@eq (path_fn (N := Rnum))) (nth k (o_path o0) d) (nth k (o_path o) d)).
  { intros d. apply (track (fun o => o_path o) (S m) (fun x i v => x = SetPath i v) eq d (fun t => length t = S m)).
    - intros x i v i' v' -> H. injection H as <- <-. auto.
    - intros o1 x o2 H1 H.
      assert (This : (exists i v, x = SetPath i v /\ put (o_path o1) i v = Ok (o_path o2)) \/ (o_path o2 = o_path o1 /\ forall i v, x <> SetPath i v)).
      { clear H1. destruct x as [b i v|b i v|b i v|b i v|i f|i f|i f|i f|i f|l'|l'|l'|s];
          try (right; try destruct b; cbn [run_assign] in H; inv_assign H; (split; [reflexivity|discriminate])).
        cbn [run_assign] in H; inv_assign H. left. exists i, f. split; [reflexivity|assumption]. }
      destruct This as [(i & v & Ex & Ep)|[Eq Hn]]; [|split; [rewrite Eq; auto|right; auto]].
      destruct (put_spec _ _ _ _ d Ep) as (k & K1 & K2 & K3 & K4). rewrite H1 in K1.
      split; [congruence|]. left. exists i, v, k. auto.
    - unfold new_ocp in E0. injection E0 as <-. cbn. rewrite repeat_length. reflexivity.
    - exact E. }
  split; [exact (proj1 (T (fun _ _ _ _ => Ok None)))|]. intros k Hk d. pose proof (proj2 (T d) k) as C.
  match goal with |- comes_to _ _ _ ?a _ => replace a with (nth k (o_path o0) d); [exact C|] end.
  unfold new_ocp in E0. injection E0 as <-. destruct k as [|k]; cbn; [reflexivity|]. rewrite nth_repeat_in by lia. reflexivity.
Qed.

Lemma built_mayer : length (o_mayer o) = nph /\
  forall k, (k < nph)%nat -> forall d, comes_to (gives_mayer nph k) l (@eq (mayer_fn (N := Rnum))) (fun _ _ _ _ _ => Ok (Some 0)) (nth k (o_mayer o) d).
Proof.
  destruct build_inv as (m & o0 & E1 & E0 & E). clear Hb. subst nph.
  assert (T : forall d, length (o_mayer o) = S m /\ forall k, comes_to (gives_mayer (S m) k) l (@eq (mayer_fn (N := Rnum))) (nth k (o_mayer o0) d) (nth k (o_mayer o) d)).
  { intros d. apply (track (fun o => o_mayer o) (S m) (fun x i v => x = SetMayer i v) eq d (fun t => length t = S m)).
    - intros x i v i' v' -> H. injection H as <- <-. auto.
    - intros o1 x o2 H1 H.
      assert (This : (exists i v, x = SetMayer i v /\ put (o_mayer o1) i v = Ok (o_mayer o2)) \/ (o_mayer o2 = o_mayer o1 /\ forall i v, x <> SetMayer i v)).
      { clear H1. destruct x as [b i v|b i v|b i v|b i v|i f|i f|i f|i f|i f|l'|l'|l'|s];
          try (right; try destruct b; cbn [run_assign] in H; inv_assign H; (split; [reflexivity|discriminate])).
        cbn [run_assign] in H; inv_assign H. left. exists i, f. split; [reflexivity|assumption]. }
      destruct This as [(i & v & Ex & Ep)|[Eq Hn]]; [|split; [rewrite Eq; auto|right; auto]].
      destruct (put_spec _ _ _ _ d Ep) as (k & K1 & K2 & K3 & K4). rewrite H1 in K1.
      split; [congruence|]. left. exists i, v, k. auto.
    - unfold new_ocp in E0. injection E0 as <-. cbn. rewrite repeat_length. reflexivity.
    - exact E. }
  split; [exact (proj1 (T (fun _ _ _ _ _ => Ok (Some 0))))|]. intros k Hk d. pose proof (proj2 (T d) k) as C.
  match goal with |- comes_to _ _ _ ?a _ => replace a with (nth k (o_mayer o0) d); [exact C|] end.
  unfold new_ocp in E0. injection E0 as <-. destruct k as [|k]; cbn; [reflexivity|]. rewrite nth_repeat_in by lia. reflexivity.
Qed.

Lemma built_running : length (o_run o) = nph /\
  forall k, (k < nph)%nat -> forall d, comes_to (gives_running nph k) l (@eq (run_fn (N := Rnum))) (fun _ _ _ _ => Ok (Some 0)) (nth k (o_run o) d).
Proof.
  destruct build_inv as (m & o0 & E1 & E0 & E). clear Hb. subst nph.
  assert (T : forall d, length (o_run o) = S m /\ forall k, comes_to (gives_running (S m) k) l (@eq (run_fn (N := Rnum))) (nth k (o_run o0) d) (nth k (o_run o) d)).
  { intros d. apply (track (fun o => o_run o) (S m) (fun x i v => x = SetRunning i v) eq d (fun t => length t = S m)).
    - intros x i v i' v' -> H. injection H as <- <-. auto.
    - intros o1 x o2 H1 H.
      assert (This : (exists i v, x = SetRunning i v /\ put (o_run o1) i v = Ok (o_run o2)) \/ (o_run o2 = o_run o1 /\ forall i v, x <> SetRunning i v)).
      { clear H1. destruct x as [b i v|b i v|b i v|b i v|i f|i f|i f|i f|i f|l'|l'|l'|s];
          try (right; try destruct b; cbn [run_assign] in H; inv_assign H; (split; [reflexivity|discriminate])).
        cbn [run_assign] in H; inv_assign H. left. exists i, f. split; [reflexivity|assumption]. }
      destruct This as [(i & v & Ex & Ep)|[Eq Hn]]; [|split; [rewrite Eq; auto|right; auto]].
      destruct (put_spec _ _ _ _ d Ep) as (k & K1 & K2 & K3 & K4). rewrite H1 in K1.
      split; [congruence|]. left. exists i, v, k. auto.
    - unfold new_ocp in E0. injection E0 as <-. cbn. rewrite repeat_length. reflexivity.
    - exact E. }
  split; [exact (proj1 (T (fun _ _ _ _ => Ok (Some 0))))|]. intros k Hk d. pose proof (proj2 (T d) k) as C.
  match goal with |- comes_to _ _ _ ?a _ => replace a with (nth k (o_run o0) d); [exact C|] end.
  unfold new_ocp in E0. injection E0 as <-. destruct k as [|k]; cbn; [reflexivity|]. rewrite nth_repeat_in by lia. reflexivity.
Qed.

Lemma built_terminal : length (o_term o) = nph /\
  forall k, (k < nph)%nat -> forall d, comes_to (gives_terminal nph k) l (@eq (term_fn (N := Rnum))) (fun _ _ _ _ _ => Ok None) (nth k (o_term o) d).
Proof.
  destruct build_inv as (m & o0 & E1 & E0 & E). clear Hb. subst nph.
  assert (T : forall d, length (o_term o) = S m /\ forall k, comes_to (gives_terminal (S m) k) l (@eq (term_fn (N := Rnum))) (nth k (o_term o0) d) (nth k (o_term o) d)).
  { intros d. apply (track (fun o => o_term o) (S m) (fun x i v => x = SetTerminal i v) eq d (fun t => length t = S m)).
    - intros x i v i' v' -> H. injection H as <- <-. auto.
    - intros o1 x o2 H1 H.
      assert (This : (exists i v, x = SetTerminal i v /\ put (o_term o1) i v = Ok (o_term o2)) \/ (o_term o2 = o_term o1 /\ forall i v, x <> SetTerminal i v)).
      { clear H1. destruct x as [b i v|b i v|b i v|b i v|i f|i f|i f|i f|i f|l'|l'|l'|s];
          try (right; try destruct b; cbn [run_assign] in H; inv_assign H; (split; [reflexivity|discriminate])).
        cbn [run_assign] in H; inv_assign H. left. exists i, f. split; [reflexivity|assumption]. }
      destruct This as [(i & v & Ex & Ep)|[Eq Hn]]; [|split; [rewrite Eq; auto|right; auto]].
      destruct (put_spec _ _ _ _ d Ep) as (k & K1 & K2 & K3 & K4). rewrite H1 in K1.
      split; [congruence|]. left. exists i, v, k. auto.
    - unfold new_ocp in E0. injection E0 as <-. cbn. rewrite repeat_length. reflexivity.
    - exact E. }
  split; [exact (proj1 (T (fun _ _ _ _ _ => Ok None)))|]. intros k Hk d. pose proof (proj2 (T d) k) as C.
  match goal with |- comes_to _ _ _ ?a _ => replace a with (nth k (o_term o0) d); [exact C|] end.
  unfold new_ocp in E0. injection E0 as <-. destruct k as [|k]; cbn; [reflexivity|]. rewrite nth_repeat_in by lia. reflexivity.
Qed.

Lemma comes_to_iff {V A} (P Q : assign Rnum -> V -> Prop) l' (R0 : V -> A -> Prop) d f :
  (forall x v, P x v <-> Q x v) -> comes_to P l' R0 d f -> comes_to Q l' R0 d f.
Proof.
  intros H [(v & (l1 & x & l2 & E1 & E2 & E3) & Hr)|[Hn Hd]].
  - left. exists v. split; [|exact Hr]. exists l1, x, l2. split; [exact E1|]. split; [apply H; exact E2|].
    intros y w Hy Hq. apply (E3 y w Hy), H, Hq.
  - right. split; [|exact Hd]. intros y w Hy Hq. apply (Hn y w Hy), H, Hq.
Qed.
Lemma built_scale {V} (get : ocp Rnum -> V) (C : V -> assign Rnum) :
  (forall v w, C v = C w -> v = w) ->
  (forall o1 x o2, run_assign o1 x = Ok o2 -> (exists v, x = C v /\ get o2 = v) \/ (get o2 = get o1 /\ forall v, x <> C v)) ->
  forall o0, new_ocp nx nu nph na = Ok o0 -> comes_to (fun x v => x = C v) l eq (get o0) (get o).
Proof.
  intros Hi Hs o0 E0. destruct build_inv as (m & o0' & -> & E0' & E).
  assert (o0' = o0) as -> by (pose proof (eq_trans (eq_sym E0') E0) as X; injection X as X; exact X).
  destruct (track (fun o => [get o]) 1 (fun x i v => x = C v /\ i = 0%Z) eq (get o) (fun _ => True)) with (o0 := o0) (l := l) (o := o) as [_ T].
  - intros x i v i' v' [-> ->] [Ex ->]. split; [reflexivity|]. apply Hi. exact Ex.
  - intros o1 x o2 _ H. split; [exact I|]. destruct (Hs _ _ _ H) as [(v & Ex & Ev)|[Eo Hn]].
    + left. exists 0%Z, v, 0%nat. split; [auto|]. split; [split; lia|]. split; [cbn; auto|]. intros [|j] Hj; [lia|reflexivity].
    + right. rewrite Eo. split; [reflexivity|]. intros i v [Ex _]. exact (Hn v Ex).
  - exact I.
  - exact E.
  - specialize (T 0%nat). cbn [nth] in T. revert T. apply comes_to_iff. intros x v. split; [intros (i & [Ex _] & _); exact Ex|].
    intros Ex. exists 0%Z. split; [auto|]. split; lia.
Qed.
Lemma built_scales :
  comes_to (fun x v => x = SetScaleX v) l eq (repeat 1 nx) (o_scale_x o) /\
  comes_to (fun x v => x = SetScaleU v) l eq (repeat 1 nu) (o_scale_u o) /\
  comes_to (fun x v => x = SetScaleA v) l eq (repeat 1 na) (o_scale_a o) /\
  comes_to (fun x v => x = SetScaleT v) l eq 1 (o_scale_t o).
Proof.
  destruct build_inv as (m & o0 & E1 & E0 & _).
  assert (D : o_scale_x o0 = repeat 1 nx /\ o_scale_u o0 = repeat 1 nu /\ o_scale_a o0 = repeat 1 na /\ o_scale_t o0 = 1).
  { rewrite E1 in E0. unfold new_ocp in E0. injection E0 as <-. cbn. auto. }
  destruct D as (D1 & D2 & D3 & D4). rewrite <- D1, <- D2, <- D3, <- D4.
  assert (St : forall (o1 : ocp Rnum) x o2, run_assign o1 x = Ok o2 ->
    ((exists v, x = SetScaleX v /\ o_scale_x o2 = v) \/ (o_scale_x o2 = o_scale_x o1 /\ forall v, x <> SetScaleX v)) /\
    ((exists v, x = SetScaleU v /\ o_scale_u o2 = v) \/ (o_scale_u o2 = o_scale_u o1 /\ forall v, x <> SetScaleU v)) /\
    ((exists v, x = SetScaleA v /\ o_scale_a o2 = v) \/ (o_scale_a o2 = o_scale_a o1 /\ forall v, x <> SetScaleA v)) /\
    ((exists v, x = SetScaleT v /\ o_scale_t o2 = v) \/ (o_scale_t o2 = o_scale_t o1 /\ forall v, x <> SetScaleT v))).
  { intros o1 x o2 H. cases x; cbn [run_assign] in H; inv_assign H;
      repeat split; first [left; eexists; split; reflexivity | right; split; [reflexivity|discriminate]]. }
  repeat split; (eapply built_scale; [intros v w E; injection E as E; exact E| |exact E0]); intros o1 x o2 H; apply (St _ _ _ H).
Qed.

Lemma built_functions k : (k < nph)%nat ->
  comes_to (gives_dynamics nph k) l eq (fun _ _ _ _ => Ok (repeat 0 nx)) (nth k (o_dyn o) (fun _ _ _ _ => Raise KeyError)) /\
  comes_to (gives_path nph k) l eq (fun _ _ _ _ => Ok None) (nth k (o_path o) (fun _ _ _ _ => Raise KeyError)) /\
  comes_to (gives_mayer nph k) l eq (fun _ _ _ _ _ => Ok (Some 0)) (nth k (o_mayer o) (fun _ _ _ _ _ => Raise KeyError)) /\
  comes_to (gives_running nph k) l eq (fun _ _ _ _ => Ok (Some 0)) (nth k (o_run o) (fun _ _ _ _ => Raise KeyError)) /\
  comes_to (gives_terminal nph k) l eq (fun _ _ _ _ _ => Ok None) (nth k (o_term o) (fun _ _ _ _ _ => Raise KeyError)).
Proof.
  intros Hk. split; [|split; [|split; [|split]]].
  - apply built_dynamics, Hk.
  - apply built_path, Hk.
  - apply built_mayer, Hk.
  - apply built_running, Hk.
  - apply built_terminal, Hk.
Qed.

(** ** Well-formed problems *)
Lemma built_shapes : scales_fit o -> (shapes_ok o <-> bounds_ordered o).
Proof.
  intros (S1 & S2 & S3). destruct built_dims as (Dx & Du & Da & Dp & Hp & _).
  split.
  - intros [] . unfold bounds_ordered. auto 10.
  - intros (O1 & O2 & O3 & O4 & O5 & O6).
    assert (B : forall a, shaped (bound o a) (brows nph a) (bwidth nx nu na a)).
    { intros a. destruct (built_bound a) as (A1 & A2 & _). split; auto. }
    assert (G : forall a, shaped (guess o a) nph (gwidth nx nu na a)).
    { intros a. destruct (built_guess a) as (A1 & A2 & _). split; auto. }
    constructor; try assumption; rewrite ?Dp, ?Dx, ?Du, ?Da;
      try exact Hp; try apply built_dynamics; try apply built_running; try apply built_mayer; try apply built_path; try apply built_terminal;
      first [exact (G Gx00)|exact (G Gxf0)|exact (G Gu00)|exact (G Guf0)|exact (G Gt00)|exact (G Gtf0)|exact (G Ga0)
            |exact (B Blbx)|exact (B Bubx)|exact (B Blbu)|exact (B Bubu)|exact (B Blba)|exact (B Buba)
            |exact (B Blbt0)|exact (B Bubt0)|exact (B Blbtf)|exact (B Bubtf)
            |(split; [exact (proj1 (B Blbe))|intros _; exact (B Blbe)])|(split; [exact (proj1 (B Bube))|intros _; exact (B Bube)])].
Qed.
Lemma built_ok npath nterm : scales_fit o ->
  (ocp_ok o npath nterm <-> (1 <= nx)%nat /\ bounds_ordered o /\ functions_ok o npath nterm /\
     (nu = 0%nat -> forall ph, nth ph (o_diff_u o) false = false /\ nth ph (o_ducont o) false = false)).
Proof.
  intros Hs. pose proof (built_shapes Hs) as Sh. destruct built_dims as (Dx & Du & Da & Dp & Hp & Dl). split.
  - intros [K1 K2 K3 K4 K5 K6 K7 _ _ _ _ _ K8 _ _ _]. split; [lia|]. split; [apply Sh; exact K1|].
    split; [repeat split; assumption|]. intros H0 ph. rewrite Du, H0 in K8.
    split; (destruct (nth ph _ false) eqn:E; [|reflexivity]); specialize (K8 ph); rewrite E in K8; lia.
  - intros (H1 & H2 & (F1 & F2 & F3 & F4 & F5) & H4). constructor; try assumption; rewrite ?Dp, ?Dx, ?Du, ?Dl.
    + apply Sh. exact H2.
    + exact H1.
    + exact (proj1 (built_switch Idiff_u)).
    + exact (proj1 (built_slope Dlbdu)).
    + exact (proj1 (built_slope Dubdu)).
    + exact (proj1 (built_switch Imidu)).
    + exact (proj1 (built_switch Idu_continuity)).
    + intros ph Hd. destruct nu as [|n']; [|lia]. destruct (H4 eq_refl ph) as [A B]. destruct Hd; congruence.
    + intros i j Hij. apply in_map_iff in Hij. destruct Hij as (q & E & Hq). injection E as <- <-. apply in_seq in Hq. lia.
    + rewrite map_length, seq_length. lia.
    + intros Hn. destruct nph as [|[|q]]; try lia. discriminate.
Qed.
End Build.

(** ** Which assignments can be made *)
Lemma put_ok {A} (l : list A) i x n : length l = n -> ((exists l', put l i x = Ok l') <-> exists k, means n i k).
Proof.
  intros <-. unfold put. split.
  - intros [l' H]. destruct (position (length l) i) as [k|] eqn:E; [|discriminate]. exists k. apply position_means. exact E.
  - intros [k H]. apply position_means in H. rewrite H. eexists. reflexivity.
Qed.
Lemma put_int_ok {A} (l : list A) i (v : ext R) g n : length l = n ->
  ((exists l', put_int (N := Rnum) l i v g = Ok l') <-> (exists k, means n i k) /\ fits_int v).
Proof.
  intros <-. unfold put_int. pose proof (to_int_spec v) as T. split.
  - intros [l' H]. destruct (position (length l) i) as [k|] eqn:E; [|discriminate]. cbn [bind] in H.
    destruct (to_int v) as [q|]; [|discriminate]. split; [exists k; apply position_means; exact E|].
    destruct T as (x & Ex & C & B). exists x, q. auto.
  - intros [[k H] Hf]. apply position_means in H. rewrite H. cbn [bind].
    destruct (to_int v) as [q|]; [eexists; reflexivity|]. destruct (T Hf).
Qed.
Lemma put_row_ok {T} (m : list (list T)) i (v : rowval T) n w : length m = n -> (forall row, In row m -> length row = w) ->
  ((exists m', put_row m i v = Ok m') <-> fits_row n w i v).
Proof.
  intros <- Hw. unfold put_row, fits_row. split.
  - intros [m' H]. destruct (position (length m) i) as [k|] eqn:E; [|discriminate]. cbn [bind] in H.
    split; [exists k; apply position_means; exact E|]. unfold at_ in H.
    destruct (nth_error m k) as [row|] eqn:Er; [|discriminate]. cbn [bind] in H.
    assert (Hr : length row = w) by (apply Hw; eapply nth_error_In; eauto).
    destruct v as [a|[|a [|b l]]|j a]; [exact I| |right; reflexivity| |
      destruct (put row j a) as [new|] eqn:Ep; [|discriminate]; destruct (put_spec _ _ _ _ a Ep) as (c & Hc & _); rewrite Hr in Hc; exists c; exact Hc];
      (match type of H with (if ?c =? ?d then _ else _) = _ => destruct (Nat.eqb_spec c d); [|discriminate] end; left; lia).
  - intros [[k H] Hv]. pose proof H as [Hk _]. apply position_means in H. rewrite H. cbn [bind]. unfold at_.
    destruct (nth_error m k) as [row|] eqn:Er; [|apply nth_error_None in Er; lia]. cbn [bind].
    assert (Hr : length row = w) by (apply Hw; eapply nth_error_In; eauto).
    destruct v as [a|[|a [|b l]]|j a]; try (eexists; reflexivity).
    + rewrite (proj2 (Nat.eqb_eq _ _)); [eexists; reflexivity|]. cbn in *. lia.
    + rewrite (proj2 (Nat.eqb_eq _ _)); [eexists; reflexivity|]. cbn in *. lia.
    + destruct Hv as [c [Hc Hj]]. unfold put. rewrite (proj2 (position_means _ _ _) (conj (eq_ind_r (fun q => (c < q)%nat) Hc Hr) (eq_ind_r (fun q => j = _ \/ j = (_ - Z.of_nat q)%Z) Hj Hr))).
      eexists. reflexivity.
Qed.
Lemma step_ok nx nu nph na l o x : build nx nu nph na l = Ok o ->
  ((exists o', run_assign o x = Ok o') <-> fits nx nu nph na x).
Proof.
  intros Hb.
  assert (Bi : forall {A} (r : res A) (g : A -> ocp Rnum), (exists o', bind r (fun m => Ok (g m)) = Ok o') <-> (exists m, r = Ok m)).
  { intros A [a|e] g; cbn; split; intros [q E]; try discriminate; eexists; reflexivity. }
  destruct x as [a i v|a i v|a i v|a i v|i f|i f|i f|i f|i f|l'|l'|l'|s]; cbn [fits].
  - destruct (built_guess nx nu nph na l o Hb a) as (A1 & A2 & _).
    rewrite <- (put_row_ok (guess o a) i v nph _ A1 A2). destruct a; cbn [run_assign]; apply Bi.
  - destruct (built_bound nx nu nph na l o Hb a) as (A1 & A2 & _).
    rewrite <- (put_row_ok (bound o a) i v (brows nph a) _ A1 A2). destruct a; cbn [run_assign]; apply Bi.
  - destruct (built_switch nx nu nph na l o Hb a) as (A1 & _).
    rewrite <- (put_int_ok (switch o a) i v (fun k => negb (k =? 0)%Z) nph A1). destruct a; cbn [run_assign]; apply Bi.
  - destruct (built_slope nx nu nph na l o Hb a) as (A1 & _).
    rewrite <- (put_int_ok (slope o a) i v (fun k => Fin (nofZ (N := Rnum) k)) nph A1). destruct a; cbn [run_assign]; apply Bi.
  - rewrite <- (put_ok (o_dyn o) i f nph (proj1 (built_dynamics nx nu nph na l o Hb))). apply Bi.
  - rewrite <- (put_ok (o_path o) i f nph (proj1 (built_path nx nu nph na l o Hb))). apply Bi.
  - rewrite <- (put_ok (o_mayer o) i f nph (proj1 (built_mayer nx nu nph na l o Hb))). apply Bi.
  - rewrite <- (put_ok (o_run o) i f nph (proj1 (built_running nx nu nph na l o Hb))). apply Bi.
  - rewrite <- (put_ok (o_term o) i f nph (proj1 (built_terminal nx nu nph na l o Hb))). apply Bi.
  - split; auto. intros _. eexists. reflexivity.
  - split; auto. intros _. eexists. reflexivity.
  - split; auto. intros _. eexists. reflexivity.
  - split; auto. intros _. eexists. reflexivity.
Qed.
Lemma build_snoc nx nu nph na l (x : assign Rnum) :
  build nx nu nph na (l ++ [x]) = (o <- build nx nu nph na l ;; run_assign o x)%res.
Proof.
  unfold build. destruct (new_ocp nx nu nph na) as [o0|]; [|reflexivity]. cbn [bind]. apply foldM_snoc.
Qed.
Lemma build_ok nx nu nph na (l : list (assign Rnum)) :
  (exists o, build nx nu nph na l = Ok o) <-> (1 <= nph)%nat /\ forall x, In x l -> fits nx nu nph na x.
Proof.
  induction l as [|x l IH] using rev_ind.
  - unfold build. destruct nph as [|m]; cbn; split; [intros [o E]; discriminate|intros [H _]; lia| |].
    + intros _. split; [lia|intros x []].
    + intros _. eexists. reflexivity.
  - rewrite build_snoc. split.
    + intros [o H]. destruct (build nx nu nph na l) as [o1|] eqn:E; [|discriminate]. cbn [bind] in H.
      destruct (proj1 IH (ex_intro _ o1 eq_refl)) as [H1 H2]. split; [exact H1|]. intros y Hy. apply in_app_or in Hy.
      destruct Hy as [Hy|[<-|[]]]; [auto|]. apply (step_ok _ _ _ _ _ _ _ E). eauto.
    + intros [H1 H2]. destruct (proj2 IH) as [o1 E]; [split; [exact H1|]; intros; apply H2, in_or_app; auto|].
      rewrite E. cbn [bind]. apply (step_ok _ _ _ _ _ _ _ E). apply H2, in_or_app. right. left. reflexivity.
Qed.
