(** What a newly built Collocation object holds (proof of C09_new_object). *)
From Coq Require Import List Arith Lia String Bool.
From Verif Require Import Num PyList Mat Poly Colloc Spec CacheR.
Import ListNotations.

Section New.
Variables (N : num) (cf : ccfg N).
Lemma init_orders ks : forall o, co_orders (fst (st_init cf o ks)) = co_orders o.
Proof.
  induction ks as [|[p|s] ks IH]; intros o; cbn; [reflexivity| |reflexivity].
  destruct (c_roots cf p) as [r|e]; cbn; [|reflexivity]. rewrite IH. reflexivity.
Qed.
Lemma init_answer ps : forall o, snd (st_init cf o (map KDeg ps)) = Ok tt <-> (forall p, In p ps -> exists r, c_roots cf p = Ok r).
Proof.
  induction ps as [|p ps IH]; intros o; cbn; [split; [intros _ p []|reflexivity]|].
  destruct (c_roots cf p) as [r|e] eqn:E; cbn.
  - rewrite IH. split; [intros H q [<-|Hq]; [exists r; exact E|exact (H q Hq)]|intros H q Hq; apply H; right; exact Hq].
  - split; [discriminate|]. intros H. destruct (H p (or_introl eq_refl)) as [r Er]. rewrite E in Er. discriminate.
Qed.
Lemma init_entry ps k : forall o, (forall p, In p ps -> exists r, c_roots cf p = Ok r) -> ~ In k (map KDeg ps) ->
  let o' := fst (st_init cf o (map KDeg ps)) in dget key_eqb (co_roots o') k = dget key_eqb (co_roots o) k /\ dget key_eqb (co_polys o') k = dget key_eqb (co_polys o) k.
Proof.
  induction ps as [|p ps IH]; intros o Hr Hk; cbn; [split; reflexivity|]. destruct (Hr p (or_introl eq_refl)) as [r ->]. cbn.
  destruct (IH (st_set cf o (KDeg p) r)) as [A B]; [intros q Hq; apply Hr; right; exact Hq|intros H; apply Hk; right; exact H|]. cbn in A, B. rewrite A, B. unfold st_set. cbn.
  rewrite !(dget_dset key_eqb key_eqb_spec). destruct (key_eqb_spec k (KDeg p)) as [->|]; [exfalso; apply Hk; left; reflexivity|split; reflexivity].
Qed.
Lemma init_holds ps p r : forall o, (forall p, In p ps -> exists r, c_roots cf p = Ok r) -> In p ps -> c_roots cf p = Ok r ->
  let o' := fst (st_init cf o (map KDeg ps)) in dget key_eqb (co_roots o') (KDeg p) = Some r /\ dget key_eqb (co_polys o') (KDeg p) = Some (get_lagrange_polynomials (cf_meth cf) r).
Proof.
  induction ps as [|q ps IH]; intros o Hr Hp Er; [destruct Hp|]. cbn. destruct (Hr q (or_introl eq_refl)) as [r' Eq]. rewrite Eq. cbn.
  assert (Hr' : forall p, In p ps -> exists r, c_roots cf p = Ok r) by (intros u Hu; apply Hr; right; exact Hu).
  destruct (in_dec Nat.eq_dec p ps) as [Hin|Hn]; [exact (IH _ Hr' Hin Er)|]. destruct Hp as [->|Hp]; [|contradiction].
  destruct (init_entry ps (KDeg p) (st_set cf o (KDeg p) r') Hr') as [A B]; [intros H; apply in_map_iff in H; destruct H as (u & Eu & Hu); injection Eu as ->; contradiction|].
  cbn in A, B. rewrite A, B. unfold st_set. cbn. rewrite !(dget_dset key_eqb key_eqb_spec). cbn. rewrite Nat.eqb_refl. rewrite Er in Eq. injection Eq as ->. split; reflexivity.
Qed.
Lemma dset_keys {V} (d : list (key * V)) k v : ~ In k (map fst d) -> map fst (dset key_eqb d k v) = map fst d ++ [k].
Proof.
  induction d as [|[k' v'] d IH]; intros H; cbn; [reflexivity|]. destruct (key_eqb_spec k k') as [->|Hn]; [exfalso; apply H; left; reflexivity|].
  cbn. rewrite IH; [reflexivity|]. intros X. apply H. right. exact X.
Qed.
Lemma init_keys ps : forall o, (forall p, In p ps -> exists r, c_roots cf p = Ok r) -> NoDup ps ->
  (forall p, In p ps -> ~ In (KDeg p) (map fst (co_roots o)) /\ ~ In (KDeg p) (map fst (co_polys o))) ->
  let o' := fst (st_init cf o (map KDeg ps)) in map fst (co_roots o') = map fst (co_roots o) ++ map KDeg ps /\ map fst (co_polys o') = map fst (co_polys o) ++ map KDeg ps.
Proof.
  induction ps as [|p ps IH]; intros o Hr Hd Hn; cbn; [rewrite !app_nil_r; split; reflexivity|]. destruct (Hr p (or_introl eq_refl)) as [r ->]. cbn.
  inversion Hd as [|? ? Hp Hd']; subst. destruct (Hn p (or_introl eq_refl)) as [N1 N2].
  assert (E1 : map fst (co_roots (st_set cf o (KDeg p) r)) = map fst (co_roots o) ++ [KDeg p]) by (cbn; apply dset_keys; exact N1).
  assert (E2 : map fst (co_polys (st_set cf o (KDeg p) r)) = map fst (co_polys o) ++ [KDeg p]) by (cbn; apply dset_keys; exact N2).
  destruct (IH (st_set cf o (KDeg p) r)) as [A B].
  - intros q Hq. apply Hr. right. exact Hq.
  - exact Hd'.
  - intros q Hq. rewrite E1, E2. destruct (Hn q (or_intror Hq)) as [M1 M2].
    assert (q <> p) by (intros ->; contradiction). split; intros X; apply in_app_or in X; destruct X as [X|[X|[]]]; try contradiction; injection X as ->; contradiction.
  - cbn zeta in A, B. rewrite A, B, E1, E2, <- !app_assoc. split; reflexivity.
Qed.
Theorem new_thm os : let o := fst (st_new cf os) in let answer := snd (st_new cf os) in
  co_orders o = os /\ (answer = Ok tt <-> forall p, In p os -> exists r, c_roots cf p = Ok r) /\
  (answer = Ok tt ->
     (exists ps, NoDup ps /\ (forall p, In p ps <-> In p os) /\ map fst (co_roots o) = map KDeg ps /\ map fst (co_polys o) = map KDeg ps) /\
     (forall p, In p os -> exists r, c_roots cf p = Ok r /\ dget key_eqb (co_roots o) (KDeg p) = Some r /\
        dget key_eqb (co_polys o) (KDeg p) = Some (get_lagrange_polynomials (cf_meth cf) r))).
Proof.
  cbv zeta. assert (Hiff : snd (st_new cf os) = Ok tt <-> (forall p, In p os -> exists r, c_roots cf p = Ok r)).
  { unfold st_new. rewrite init_answer. split; intros H p Hp; apply H; [apply nodup_In; exact Hp|apply nodup_In in Hp; exact Hp]. }
  split; [unfold st_new; apply init_orders|]. split; [exact Hiff|]. intros Ha. pose proof (proj1 Hiff Ha) as Hr.
  assert (Hr' : forall p, In p (nodup Nat.eq_dec os) -> exists r, c_roots cf p = Ok r) by (intros p Hp; apply nodup_In in Hp; exact (Hr p Hp)). split.
  - exists (nodup Nat.eq_dec os). split; [apply NoDup_nodup|]. split; [intros p; apply nodup_In|]. apply (init_keys _ (CollocObj os [] []) Hr' (NoDup_nodup _ _)). intros p _. split; intros [].
  - intros p Hp. destruct (Hr p Hp) as [r Er]. exists r. split; [exact Er|]. apply (init_holds _ p r _ Hr'); [apply nodup_In; exact Hp|exact Er].
Qed.
End New.
