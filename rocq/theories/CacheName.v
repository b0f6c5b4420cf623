(** A name under which no roots were registered (proof of C09_unknown_name). *)
From Coq Require Import List Arith Lia String Bool.
From Verif Require Import Num PyList Mat Poly Colloc Spec CacheR.
Import ListNotations.

Section Name.
Variables (N : num) (cf : ccfg N) (s : string).
Definition unnamed (o : colloc N) : Prop := dget key_eqb (co_roots o) (KStr s) = None.
Lemma unnamed_set o k r : unnamed o -> k <> KStr s -> unnamed (st_set cf o k r).
Proof.
  intros H Hne. unfold unnamed, st_set. cbn. rewrite (dget_dset key_eqb key_eqb_spec). destruct (key_eqb_spec (KStr s) k); [congruence|exact H].
Qed.
Lemma unnamed_init1 o k : unnamed o -> unnamed (fst (st_init1 cf o k)).
Proof. intros H. destruct k as [q|t]; cbn; [|exact H]. destruct (c_roots cf q); cbn; [apply unnamed_set; [exact H|discriminate]|exact H]. Qed.
Lemma unnamed_init ks : forall o, unnamed o -> unnamed (fst (st_init cf o ks)).
Proof.
  induction ks as [|k ks IH]; intros o H; cbn [st_init]; [exact H|]. pose proof (unnamed_init1 o k H) as H'. destruct (st_init1 cf o k) as [o' [u|e]]; cbn in *; [apply IH; exact H'|exact H'].
Qed.
Lemma unnamed_basis o k : unnamed o -> unnamed (fst (st_basis cf o k)).
Proof.
  intros H. unfold st_basis. destruct (dmem _ _ _ && dmem _ _ _); [exact H|]. pose proof (unnamed_init1 o k H) as H'. destruct (st_init1 cf o k). exact H'.
Qed.
Lemma unnamed_mapM {A B} (f : colloc N -> A -> colloc N * res B) l :
  (forall o a, unnamed o -> unnamed (fst (f o a))) -> forall o, unnamed o -> unnamed (fst (st_mapM f o l)).
Proof.
  intros Hf. induction l as [|a l IH]; intros o Hi; cbn; [exact Hi|].
  pose proof (Hf o a Hi) as H. destruct (f o a) as [o' [b|e]]; cbn in *; [|exact H].
  pose proof (IH o' H) as H'. destruct (st_mapM f o' l) as [o'' [bs|e]]; exact H'.
Qed.
Lemma unnamed_diff o k t d : unnamed o -> unnamed (fst (st_diff_matrix cf o k t d)).
Proof. intros H. unfold st_diff_matrix. rewrite fst_let. apply unnamed_basis; auto. Qed.
Lemma unnamed_quad o k a b : unnamed o -> unnamed (fst (st_quad_weights cf o k a b)).
Proof. intros H. unfold st_quad_weights. rewrite fst_let. apply unnamed_basis; auto. Qed.
Lemma unnamed_interp o k t : unnamed o -> unnamed (fst (st_interp_matrix cf o t k)).
Proof. intros H. unfold st_interp_matrix. rewrite fst_let. apply unnamed_basis; auto. Qed.
Lemma unnamed_call o c : unnamed o -> ~ resets (KStr s) c -> unnamed (st_call cf o c).
Proof.
  intros Hi Hn. destruct c; cbn [st_call].
  - apply unnamed_diff; auto.
  - apply unnamed_quad; auto.
  - apply unnamed_interp; auto.
  - unfold st_comp_diff. rewrite fst_let. apply unnamed_mapM; auto. intros; apply unnamed_diff; auto.
  - unfold st_comp_quad. rewrite fst_let. apply unnamed_mapM; auto. intros; apply unnamed_quad; auto.
  - unfold st_comp_interp. rewrite fst_let. apply unnamed_mapM; auto. intros o' [i q] H.
    destruct (at_ taus i); [apply unnamed_interp; auto|exact H].
  - unfold st_comp_interpD. rewrite fst_let. apply unnamed_mapM; auto. intros o' [i q] H.
    destruct (at_ taus i); [apply unnamed_diff; auto|exact H].
  - cbn in Hn. unfold st_custom. revert o Hi Hn. induction d as [|[k' r'] d IH]; intros o Hi Hn; cbn; auto.
    apply IH; [apply unnamed_set; auto; intros ->; apply Hn; left; auto|intros H; apply Hn; right; auto].
  - apply unnamed_init. exact Hi.
Qed.
Theorem unknown_name (os : list nat) (h : list (ccall N)) : (forall c, In c h -> ~ resets (KStr s) c) ->
  let o := run cf os h in
  (forall t d, st_diff_matrix cf o (KStr s) t d = (o, Raise TypeError)) /\
  (forall a b, st_quad_weights cf o (KStr s) a b = (o, Raise TypeError)) /\
  (forall t, st_interp_matrix cf o t (KStr s) = (o, Raise TypeError)).
Proof.
  intros Hh o. assert (Ho : unnamed o).
  { unfold o, run. assert (H0 : unnamed (fst (st_new cf os))) by (apply unnamed_init; reflexivity). revert Hh H0. generalize (fst (st_new cf os)). induction h as [|c h' IH]; intros o0 Hh H0; cbn; [exact H0|].
    apply IH; [intros c' Hc'; apply Hh; right; exact Hc'|]. apply unnamed_call; [exact H0|]. apply Hh. left; reflexivity. }
  assert (B : st_basis cf o (KStr s) = (o, Raise TypeError)) by (unfold st_basis, dmem; rewrite Ho; reflexivity).
  split; [|split]; intros; [unfold st_diff_matrix|unfold st_quad_weights|unfold st_interp_matrix]; rewrite B; reflexivity.
Qed.
End Name.
