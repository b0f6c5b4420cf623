(** The Collocation object answers as the pure functions after any history (proofs). *)
From Coq Require Import List Arith Bool String Lia.
From Verif Require Import Num PyList Mat Poly Roots Colloc Spec ListR.
Import ListNotations.

Lemma key_eqb_spec a b : reflect (a = b) (key_eqb a b).
Proof.
  destruct a as [p|s], b as [q|t]; cbn; try (constructor; congruence).
  - destruct (Nat.eqb_spec p q); constructor; congruence.
  - destruct (String.eqb_spec s t); constructor; congruence.
Qed.
Lemma dget_dset {K V} (eqb : K -> K -> bool) (Heq : forall a b, reflect (a = b) (eqb a b))
    (d : list (K * V)) k v k' : dget eqb (dset eqb d k v) k' = if eqb k' k then Some v else dget eqb d k'.
Proof.
  induction d as [|[k0 v0] d IH]; cbn.
  - reflexivity.
  - destruct (Heq k k0) as [->|Hk]; cbn.
    + destruct (Heq k' k0); auto.
    + rewrite IH. destruct (Heq k' k0) as [->|H0]; [|reflexivity].
      destruct (Heq k0 k); [congruence|reflexivity].
Qed.

Section Cache.
Variable (N : num) (cf : ccfg N).
Let lag (r : list N) := get_lagrange_polynomials (cf_meth cf) r.

(** the entry of order p, if present, is the one computed by init_polynomials *)
Definition inv (p : nat) (o : colloc N) : Prop :=
  match dget key_eqb (co_roots o) (KDeg p), dget key_eqb (co_polys o) (KDeg p) with
  | None, None => True
  | Some r, Some ps => c_roots cf p = Ok r /\ ps = lag r
  | _, _ => False
  end.

Lemma inv_new os p : inv p (CollocObj os [] []).
Proof. exact I. Qed.
Lemma inv_set o k r p : inv p o -> (k = KDeg p -> c_roots cf p = Ok r) -> inv p (st_set cf o k r).
Proof.
  intros Hi Hk. unfold inv, st_set. cbn. rewrite !(dget_dset key_eqb key_eqb_spec).
  destruct (key_eqb_spec (KDeg p) k) as [<-|]; [split; auto|exact Hi].
Qed.
Lemma inv_init1 o k p : inv p o -> inv p (fst (st_init1 cf o k)).
Proof.
  intros Hi. destruct k as [q|s]; cbn; [|exact Hi].
  destruct (c_roots cf q) as [r|] eqn:E; cbn; [|exact Hi].
  apply inv_set; auto. intros H. inversion H; subst. exact E.
Qed.
Lemma inv_init o ks p : inv p o -> inv p (fst (st_init cf o ks)).
Proof.
  revert o; induction ks as [|k ks IH]; intros o Hi; cbn; [exact Hi|].
  pose proof (inv_init1 _ k _ Hi) as H. destruct (st_init1 cf o k) as [o' [u|e]]; cbn in *; auto.
Qed.
Lemma inv_basis o k p : inv p o -> inv p (fst (st_basis cf o k)).
Proof.
  intros Hi. unfold st_basis.
  destruct (dmem _ _ _ && dmem _ _ _); [exact Hi|].
  pose proof (inv_init1 _ k _ Hi) as H. destruct (st_init1 cf o k) as [o' u]. exact H.
Qed.
Lemma basis_result o p : inv p o ->
  snd (st_basis cf o (KDeg p)) = (r <- c_roots cf p ;; Ok (r, lag r)).
Proof.
  intros Hi. unfold st_basis, inv, dmem in *.
  destruct (dget key_eqb (co_roots o) (KDeg p)) as [r|] eqn:Er;
    destruct (dget key_eqb (co_polys o) (KDeg p)) as [ps|] eqn:Ep; cbn [andb]; try contradiction.
  - destruct Hi as [Hc ->]. cbn. unfold dat. rewrite Er, Ep, Hc. reflexivity.
  - cbn. destruct (c_roots cf p) as [r|e] eqn:Ec; cbn; [|reflexivity].
    unfold dat. rewrite !(dget_dset key_eqb key_eqb_spec). cbn. rewrite Nat.eqb_refl. reflexivity.
Qed.
Lemma inv_custom d o p : inv p o -> ~ In (KDeg p) (map fst d) -> inv p (st_custom cf o d).
Proof.
  unfold st_custom. revert o; induction d as [|[k r] d IH]; intros o Hi Hn; cbn; [exact Hi|].
  apply IH.
  - apply inv_set; auto. intros ->. exfalso. apply Hn. left. reflexivity.
  - intros H. apply Hn. right. exact H.
Qed.

Lemma inv_diff o k t d p : inv p o -> inv p (fst (st_diff_matrix cf o k t d)).
Proof.
  intros Hi. unfold st_diff_matrix. pose proof (inv_basis _ k _ Hi) as H.
  destruct (st_basis cf o k). exact H.
Qed.
Lemma inv_quad o k a b p : inv p o -> inv p (fst (st_quad_weights cf o k a b)).
Proof.
  intros Hi. unfold st_quad_weights. pose proof (inv_basis _ k _ Hi) as H.
  destruct (st_basis cf o k). exact H.
Qed.
Lemma inv_interp o k t p : inv p o -> inv p (fst (st_interp_matrix cf o t k)).
Proof.
  intros Hi. unfold st_interp_matrix. pose proof (inv_basis _ k _ Hi) as H.
  destruct (st_basis cf o k). exact H.
Qed.
Lemma inv_mapM {A B} (f : colloc N -> A -> colloc N * res B) l p :
  (forall o a, inv p o -> inv p (fst (f o a))) -> forall o, inv p o -> inv p (fst (st_mapM f o l)).
Proof.
  intros Hf. induction l as [|a l IH]; intros o Hi; cbn; [exact Hi|].
  pose proof (Hf o a Hi) as H. destruct (f o a) as [o' [b|e]]; cbn in *; [|exact H].
  pose proof (IH o' H) as H'. destruct (st_mapM f o' l) as [o'' [bs|e]]; exact H'.
Qed.

Lemma fst_let {A B C : Type} (x : A * B) (g : A -> B -> C) :
  fst (let '(a, b) := x in (a, g a b)) = fst x.
Proof. destruct x; reflexivity. Qed.

Lemma inv_call o c p : inv p o -> ~ overrides p c -> inv p (st_call cf o c).
Proof.
  intros Hi Hn. destruct c; cbn [st_call].
  - apply inv_diff; auto.
  - apply inv_quad; auto.
  - apply inv_interp; auto.
  - unfold st_comp_diff. rewrite fst_let. apply inv_mapM; auto. intros; apply inv_diff; auto.
  - unfold st_comp_quad. rewrite fst_let. apply inv_mapM; auto. intros; apply inv_quad; auto.
  - unfold st_comp_interp. rewrite fst_let. apply inv_mapM; auto. intros o' [i q] H.
    destruct (at_ taus i); [apply inv_interp; auto|exact H].
  - unfold st_comp_interpD. rewrite fst_let. apply inv_mapM; auto. intros o' [i q] H.
    destruct (at_ taus i); [apply inv_diff; auto|exact H].
  - apply inv_custom; auto.
  - apply inv_init; auto.
Qed.
Lemma inv_history os cs p : (forall c, In c cs -> ~ overrides p c) ->
  inv p (fold_left (st_call cf) cs (fst (st_new cf os))).
Proof.
  intros H. assert (H0 : inv p (fst (st_new cf os))) by (apply inv_init, inv_new).
  revert H H0. generalize (fst (st_new cf os)) as o. induction cs as [|c cs IH]; intros o H H0; cbn; auto.
  apply IH.
  - intros c' Hc'. apply H. right; auto.
  - apply inv_call; auto. apply H. left; auto.
Qed.

Lemma diff_result o p t d : inv p o -> snd (st_diff_matrix cf o (KDeg p) t d) = diff_matrix cf p t d.
Proof.
  intros Hi. unfold st_diff_matrix, diff_matrix. pose proof (basis_result _ p Hi) as H.
  destruct (st_basis cf o (KDeg p)) as [o' b]. cbn in *. rewrite H.
  destruct (c_roots cf p); reflexivity.
Qed.
Lemma quad_result o p a b : inv p o -> snd (st_quad_weights cf o (KDeg p) a b) = quad_weights cf p a b.
Proof.
  intros Hi. unfold st_quad_weights, quad_weights. pose proof (basis_result _ p Hi) as H.
  destruct (st_basis cf o (KDeg p)) as [o' bb]. cbn in *. rewrite H.
  destruct (c_roots cf p); reflexivity.
Qed.
Lemma interp_result o p t : inv p o -> snd (st_interp_matrix cf o t (KDeg p)) = interp_matrix cf t p.
Proof.
  intros Hi. unfold st_interp_matrix, interp_matrix. pose proof (basis_result _ p Hi) as H.
  destruct (st_basis cf o (KDeg p)) as [o' b]. cbn in *. rewrite H.
  destruct (c_roots cf p); reflexivity.
Qed.

Lemma mapM_result {A B} (P : colloc N -> Prop) (f : colloc N -> A -> colloc N * res B) (g : A -> res B) l :
  (forall o a, In a l -> P o -> P (fst (f o a)) /\ snd (f o a) = g a) ->
  forall o, P o -> snd (st_mapM f o l) = mapM g l.
Proof.
  induction l as [|a l IH]; intros Hf o Ho; cbn; [reflexivity|].
  destruct (Hf o a (or_introl eq_refl) Ho) as [H1 H2].
  destruct (f o a) as [o' [b|e]]; cbn in *; rewrite <- H2; cbn; [|reflexivity].
  rewrite <- (IH (fun o a H => Hf o a (or_intror H)) o' H1).
  destruct (st_mapM f o' l) as [o'' [bs|e]]; reflexivity.
Qed.

Lemma dat_combine {B} (g : nat -> res B) l ms : mapM g l = Ok ms ->
  forall p, In p l -> dat Nat.eqb (combine l ms) p = g p.
Proof.
  revert ms; induction l as [|a l IH]; intros ms H p Hp; [destruct Hp|].
  cbn [mapM] in H. destruct (g a) as [b|] eqn:Ea; [|discriminate]. cbn [bind] in H.
  destruct (mapM g l) as [bs|] eqn:El; [|discriminate]. cbn [bind] in H. inversion H; subst.
  unfold dat. cbn. destruct (Nat.eqb_spec p a) as [->|Hne]; [auto|].
  destruct Hp as [->|Hp]; [congruence|]. apply (IH bs eq_refl p Hp).
Qed.
Lemma mapM_ok_all {A B} (g : A -> res B) l bs : mapM g l = Ok bs -> forall a, In a l -> exists b, g a = Ok b.
Proof.
  intros H a Ha. apply In_nth_error in Ha. destruct Ha as [k Hk].
  destruct (mapM_inv _ _ _ H) as [_ Hn]. destruct (Hn k a Hk) as (b & _ & Hb). eauto.
Qed.
Lemma mapM_all_ok {A B} (g : A -> res B) l : (forall a, In a l -> exists b, g a = Ok b) -> exists bs, mapM g l = Ok bs.
Proof.
  induction l as [|a l IH]; intros H; [exists []; reflexivity|].
  destruct (H a (or_introl eq_refl)) as [b Hb]. destruct IH as [bs Hbs]; [intros; apply H; right; auto|].
  exists (b :: bs). cbn. rewrite Hb. cbn. rewrite Hbs. reflexivity.
Qed.
(** a dictionary over the distinct orders, then lookups, is a matrix per segment *)
Lemma uniq_lookup {B C} (g : nat -> res B) (orders : list nat) (k : list B -> res C) M :
  (ms <- mapM g (nodup Nat.eq_dec orders) ;;
   Ds <- mapM (fun p => dat Nat.eqb (combine (nodup Nat.eq_dec orders) ms) p) orders ;; k Ds) = Ok M <->
  (Ds <- mapM g orders ;; k Ds) = Ok M.
Proof.
  destruct (mapM g (nodup Nat.eq_dec orders)) as [ms|e] eqn:E; cbn [bind].
  - rewrite (mapM_ext _ g); [tauto|]. intros p Hp. apply (dat_combine g _ _ E). apply nodup_In; auto.
  - split; [discriminate|]. destruct (mapM g orders) as [bs|] eqn:Eo; [|discriminate].
    destruct (mapM_all_ok g (nodup Nat.eq_dec orders)) as [bs' H']; [|congruence].
    intros a Ha. eapply mapM_ok_all; [exact Eo|]. apply nodup_In in Ha; auto.
Qed.

Definition invs (ps : list nat) (o : colloc N) : Prop := forall p, In p ps -> inv p o.

Lemma comp_diff_result o os d M : invs os o ->
  (snd (st_comp_diff cf o os d) = Ok M <-> comp_diff cf os d = Ok M).
Proof.
  intros Hi. unfold st_comp_diff, comp_diff.
  pose proof (mapM_result (invs os) (fun o p => st_diff_matrix cf o (KDeg p) None d)
    (fun p => diff_matrix cf p None d) (nodup Nat.eq_dec os)) as H.
  destruct (st_mapM _ o (nodup Nat.eq_dec os)) as [o' r] eqn:E. cbn [snd].
  specialize (H (fun o p Hp Ho => conj (fun q Hq => inv_diff _ (KDeg p) None d _ (Ho q Hq)) (diff_result _ _ None d (Ho p (proj1 (nodup_In _ _ _) Hp)))) o Hi).
  rewrite E in H. cbn [snd] in H. rewrite H. apply uniq_lookup.
Qed.
Lemma comp_quad_result o os a b M : invs os o ->
  (snd (st_comp_quad cf o os a b) = Ok M <-> comp_quad cf os a b = Ok M).
Proof.
  intros Hi. unfold st_comp_quad, comp_quad.
  pose proof (mapM_result (invs os) (fun o p => st_quad_weights cf o (KDeg p) a b)
    (fun p => quad_weights cf p a b) (nodup Nat.eq_dec os)) as H.
  destruct (st_mapM _ o (nodup Nat.eq_dec os)) as [o' r] eqn:E. cbn [snd].
  specialize (H (fun o p Hp Ho => conj (fun q Hq => inv_quad _ (KDeg p) a b _ (Ho q Hq)) (quad_result _ _ a b (Ho p (proj1 (nodup_In _ _ _) Hp)))) o Hi).
  rewrite E in H. cbn [snd] in H. rewrite H. apply uniq_lookup.
Qed.
Lemma in_enum_in {A} (l : list A) i a : In (i, a) (enumerate l) -> In a l.
Proof. intros H. apply in_enumerate in H. eapply nth_error_In; eauto. Qed.
Lemma comp_interp_result o taus os : invs os o ->
  snd (st_comp_interp cf o taus os) = comp_interp cf taus os.
Proof.
  intros Hi. unfold st_comp_interp, comp_interp.
  match goal with |- context [st_mapM ?f o ?l] => pose proof (mapM_result (invs os) f
    (fun '(i, p) => t <- at_ taus i ;; interp_matrix cf t p) l) as H; destruct (st_mapM f o l) as [o' r] eqn:E end.
  cbn [snd]. rewrite <- H with (o := o); [rewrite E; reflexivity| |exact Hi].
  intros o1 [i p] Hin Ho. destruct (at_ taus i) as [t|]; cbn [bind].
  - split; [intros q Hq; apply inv_interp; auto|apply interp_result, Ho; eapply in_enum_in; eauto].
  - split; auto.
Qed.
Lemma comp_interpD_result o taus os d : invs os o ->
  snd (st_comp_interpD cf o taus os d) = comp_interpD cf taus os d.
Proof.
  intros Hi. unfold st_comp_interpD, comp_interpD.
  match goal with |- context [st_mapM ?f o ?l] => pose proof (mapM_result (invs os) f
    (fun '(i, p) => t <- at_ taus i ;; diff_matrix cf p (Some t) d) l) as H; destruct (st_mapM f o l) as [o' r] eqn:E end.
  cbn [snd]. rewrite <- H with (o := o); [rewrite E; reflexivity| |exact Hi].
  intros o1 [i p] Hin Ho. destruct (at_ taus i) as [t|]; cbn [bind].
  - split; [intros q Hq; apply inv_diff; auto|apply diff_result, Ho; eapply in_enum_in; eauto].
  - split; auto.
Qed.

(** custom roots under a name: the answer uses the roots registered last *)
Definition key_inv (k : key) (r : list N) (o : colloc N) : Prop :=
  dget key_eqb (co_roots o) k = Some r /\ dget key_eqb (co_polys o) k = Some (lag r).
Lemma custom_last o d k r : key_inv k r (st_custom cf o (d ++ [(k, r)])).
Proof.
  unfold st_custom. rewrite fold_left_app. cbn. unfold key_inv. cbn.
  rewrite !(dget_dset key_eqb key_eqb_spec). destruct (key_eqb_spec k k); [split; reflexivity|congruence].
Qed.
Lemma basis_custom o k r : key_inv k r o -> st_basis cf o k = (o, Ok (r, lag r)).
Proof.
  intros [H1 H2]. unfold st_basis, dmem, dat. rewrite H1, H2. cbn. unfold dat. rewrite H1, H2. reflexivity.
Qed.
End Cache.

(** ** Custom roots under a key persist *)
Section Custom.
Variable (N : num) (cf : ccfg N).
Let lag (r : list N) := get_lagrange_polynomials (cf_meth cf) r.
Local Notation kinv := (key_inv N cf).

Lemma kinv_set o k r k' r' : kinv k r o -> k' <> k -> kinv k r (st_set cf o k' r').
Proof.
  intros [H1 H2] Hne. unfold key_inv, st_set. cbn. rewrite !(dget_dset key_eqb key_eqb_spec).
  destruct (key_eqb_spec k k'); [congruence|auto].
Qed.
Lemma kinv_init1 o k r k' : kinv k r o -> k' <> k -> kinv k r (fst (st_init1 cf o k')).
Proof.
  intros Hi Hne. destruct k' as [q|s]; cbn; [|exact Hi].
  destruct (c_roots cf q); cbn; [apply kinv_set; auto|exact Hi].
Qed.
Lemma kinv_basis o k r k' : kinv k r o -> kinv k r (fst (st_basis cf o k')).
Proof.
  intros Hi. destruct (key_eqb_spec k' k) as [->|Hne].
  - rewrite (basis_custom N cf o k r Hi). exact Hi.
  - unfold st_basis. destruct (dmem _ _ _ && dmem _ _ _); [exact Hi|].
    pose proof (kinv_init1 o k r k' Hi Hne) as H. destruct (st_init1 cf o k'). exact H.
Qed.
Lemma kinv_mapM {A B} (f : colloc N -> A -> colloc N * res B) l k r :
  (forall o a, kinv k r o -> kinv k r (fst (f o a))) -> forall o, kinv k r o -> kinv k r (fst (st_mapM f o l)).
Proof.
  intros Hf. induction l as [|a l IH]; intros o Hi; cbn; [exact Hi|].
  pose proof (Hf o a Hi) as H. destruct (f o a) as [o' [b|e]]; cbn in *; [|exact H].
  pose proof (IH o' H) as H'. destruct (st_mapM f o' l) as [o'' [bs|e]]; exact H'.
Qed.
Lemma kinv_diff o k r k' t d : kinv k r o -> kinv k r (fst (st_diff_matrix cf o k' t d)).
Proof. intros H. unfold st_diff_matrix. rewrite fst_let. apply kinv_basis; auto. Qed.
Lemma kinv_quad o k r k' a b : kinv k r o -> kinv k r (fst (st_quad_weights cf o k' a b)).
Proof. intros H. unfold st_quad_weights. rewrite fst_let. apply kinv_basis; auto. Qed.
Lemma kinv_interp o k r k' t : kinv k r o -> kinv k r (fst (st_interp_matrix cf o t k')).
Proof. intros H. unfold st_interp_matrix. rewrite fst_let. apply kinv_basis; auto. Qed.

Lemma kinv_call o k r c : kinv k r o -> ~ resets k c -> kinv k r (st_call cf o c).
Proof.
  intros Hi Hn. destruct c; cbn [st_call].
  - apply kinv_diff; auto.
  - apply kinv_quad; auto.
  - apply kinv_interp; auto.
  - unfold st_comp_diff. rewrite fst_let. apply kinv_mapM; auto. intros; apply kinv_diff; auto.
  - unfold st_comp_quad. rewrite fst_let. apply kinv_mapM; auto. intros; apply kinv_quad; auto.
  - unfold st_comp_interp. rewrite fst_let. apply kinv_mapM; auto. intros o' [i q] H.
    destruct (at_ taus i); [apply kinv_interp; auto|exact H].
  - unfold st_comp_interpD. rewrite fst_let. apply kinv_mapM; auto. intros o' [i q] H.
    destruct (at_ taus i); [apply kinv_diff; auto|exact H].
  - cbn in Hn. unfold st_custom. revert o Hi Hn. induction d as [|[k' r'] d IH]; intros o Hi Hn; cbn; auto.
    apply IH; [apply kinv_set; auto; intros ->; apply Hn; left; auto|intros H; apply Hn; right; auto].
  - cbn in Hn. revert o Hi Hn. induction ks as [|q ks IH]; intros o Hi Hn; cbn [map st_init]; auto.
    pose proof (kinv_init1 o k r (KDeg q) Hi) as H.
    destruct (st_init1 cf o (KDeg q)) as [o' [u|e]]; cbn in *.
    + apply IH; [apply H; intros E; apply Hn; left; auto|intros HH; apply Hn; right; auto].
    + apply H. intros E; apply Hn; left; auto.
Qed.
Lemma kinv_history cs k r : (forall c, In c cs -> ~ resets k c) ->
  forall o, kinv k r o -> kinv k r (fold_left (st_call cf) cs o).
Proof.
  induction cs as [|c cs IH]; intros H o Ho; cbn; auto.
  apply IH; [intros; apply H; right; auto|]. apply kinv_call; auto. apply H; left; auto.
Qed.
End Custom.
