(** Retrieved results (proofs). *)
From Coq Require Import String.
From Coq Require Import Reals.
From Coq Require Import List Lia Lra Bool Arith.
From Verif Require Import Num PyList Mat Poly Roots Colloc Ocp Transcribe Solve Hadapt Resid Adaptive Post
  Spec SpecOcp SpecSolve SpecHadapt SpecResid SpecAdapt SpecPost
  NumR ListR PolyR CollocR CompR CollocThm MeshR BlockR DiscR NlpR NlpThm NlpMain GuessR GridR ResidR AdaptR AdaptPh AdaptThm AdaptMain.
Import ListNotations.
Open Scope R_scope.
Open Scope list_scope.

(** ** Stacks of arrays, one per phase *)
Definition stacked (n c : nat) (P : nat -> nat -> nat -> R -> Prop) (phases : list nat) (m : mat Rnum) : Prop :=
  nr m = (length phases * n)%nat /\ nc m = c /\
  forall q ph i j, nth_error phases q = Some ph -> (i < n)%nat -> (j < c)%nat -> P ph i j (mget m (q * n + i) j).
Definition beside (r c : nat) (P : nat -> nat -> nat -> R -> Prop) (phases : list nat) (m : mat Rnum) : Prop :=
  nr m = r /\ nc m = (length phases * c)%nat /\
  forall q ph i j, nth_error phases q = Some ph -> (i < r)%nat -> (j < c)%nat -> P ph i j (mget m i (q * c + j)).
Definition tstacked (n : nat) (P : nat -> nat -> R -> Prop) (phases : list nat) (t : list R) : Prop :=
  length t = (length phases * n)%nat /\
  forall q ph i, nth_error phases q = Some ph -> (i < n)%nat -> P ph i (nth (q * n + i) t 0).

Lemma nth_error_snoc {A} (l : list A) a q x : nth_error (l ++ [a]) q = Some x ->
  (nth_error l q = Some x /\ (q < length l)%nat) \/ (q = length l /\ x = a).
Proof.
  intros H. destruct (lt_dec q (length l)) as [Hq|Hq].
  - left. rewrite nth_error_app1 in H by exact Hq. auto.
  - right. rewrite nth_error_app2 in H by lia. destruct (q - length l)%nat as [|k] eqn:E; cbn in H; [split; [lia|congruence]|destruct k; discriminate].
Qed.
Lemma vstack_ok n c P phases ph a b : stacked n c P phases a -> stacked n c P [ph] b ->
  exists m, vstack (N := Rnum) a b = Ok m /\ stacked n c P (phases ++ [ph]) m.
Proof.
  intros (Ra & Ca & Ha) (Rb & Cb & Hb). unfold vstack. rewrite Ca, Cb, Nat.eqb_refl. eexists. split; [reflexivity|].
  unfold stacked. cbn [nr nc mget]. cbn [length] in Rb. rewrite app_length. cbn [length]. split; [nia|]. split; [reflexivity|].
  intros q p i j Hq Hi Hj. destruct (nth_error_snoc _ _ _ _ Hq) as [[Hq' Hl]|[-> ->]].
  - replace (q * n + i <? nr a)%nat with true by (symmetry; apply Nat.ltb_lt; nia). auto.
  - replace (length phases * n + i <? nr a)%nat with false by (symmetry; apply Nat.ltb_ge; nia).
    replace (length phases * n + i - nr a)%nat with (0 * n + i)%nat by nia. apply Hb; auto.
Qed.
Lemma hstack_ok r c P phases ph a b : beside r c P phases a -> beside r c P [ph] b ->
  exists m, hstack (N := Rnum) a b = Ok m /\ beside r c P (phases ++ [ph]) m.
Proof.
  intros (Ra & Ca & Ha) (Rb & Cb & Hb). unfold hstack. rewrite Ra, Rb, Nat.eqb_refl. eexists. split; [reflexivity|].
  unfold beside. cbn [nr nc mget]. cbn [length] in Cb. rewrite app_length. cbn [length]. split; [reflexivity|]. split; [nia|].
  intros q p i j Hq Hi Hj. destruct (nth_error_snoc _ _ _ _ Hq) as [[Hq' Hl]|[-> ->]].
  - replace (q * c + j <? nc a)%nat with true by (symmetry; apply Nat.ltb_lt; nia). auto.
  - replace (length phases * c + j <? nc a)%nat with false by (symmetry; apply Nat.ltb_ge; nia).
    replace (length phases * c + j - nc a)%nat with (0 * c + j)%nat by nia. apply Hb; auto.
Qed.
Lemma tapp_ok n P phases ph a b : tstacked n P phases a -> tstacked n P [ph] b -> tstacked n P (phases ++ [ph]) (a ++ b).
Proof.
  intros (La & Ha) (Lb & Hb). split; [rewrite !app_length; cbn [length] in *; nia|].
  intros q p i Hq Hi. destruct (nth_error_snoc _ _ _ _ Hq) as [[Hq' Hl]|[-> ->]].
  - rewrite app_nth1 by nia. auto.
  - rewrite app_nth2 by nia. replace (length phases * n + i - length a)%nat with (0 * n + i)%nat by nia. apply Hb; auto.
Qed.

(** a step that adds the data of one phase, for all remaining phases *)
Lemma fold_phases {D} (step : D -> nat -> res D) (S : list nat -> D -> Prop) (ok : nat -> Prop) :
  (forall done d ph, S done d -> ok ph -> exists d', step d ph = Ok d' /\ S (done ++ [ph]) d') ->
  forall rest done d, S done d -> (forall ph, In ph rest -> ok ph) ->
  exists d', foldM step rest d = Ok d' /\ S (done ++ rest) d'.
Proof.
  intros Hs. induction rest as [|ph rest IH]; intros done d Hd Ho.
  - exists d. split; [reflexivity|]. now rewrite app_nil_r.
  - destruct (Hs done d ph Hd (Ho ph (or_introl eq_refl))) as (d' & E & Hd'). cbn [foldM]. rewrite E. cbn [bind].
    destruct (IH _ _ Hd') as (d2 & E2 & H2); [intros; apply Ho; now right|]. exists d2. split; [exact E2|].
    now rewrite <- app_assoc in H2.
Qed.

(** ** Division *)
Lemma bdiv_same (m : mat Rnum) (v : list R) : nc m = length v ->
  exists q, bdiv (N := Rnum) m v = Ok q /\ nr q = nr m /\ nc q = length v /\
    forall i j, mget q i j = mget m i j / nth j v 0.
Proof. intros H. unfold bdiv. nred. rewrite H, Nat.eqb_refl. eexists. split; [reflexivity|]. cbn [nr nc mget]. auto. Qed.
Lemma bdiv_column (a v : list R) : exists q, bdiv (N := Rnum) (column (N := Rnum) a) v = Ok q /\ nr q = length a /\ nc q = length v /\
  forall i j, (j < length v)%nat -> mget q i j = nth i a 0 / nth j v 0.
Proof.
  unfold bdiv. cbn [column nc nr]. nred. destruct (Nat.eqb_spec 1 (length v)) as [E|E].
  - eexists. split; [reflexivity|]. cbn [nr nc mget]. repeat split; auto.
  - cbn [Nat.eqb]. eexists. split; [reflexivity|]. cbn [nr nc mget]. repeat split; auto.
Qed.

(** ** One object *)
Section Obj.
Variables (mp : mpo Rnum) (npath nterm : nat -> option nat).
Local Notation o := (mp_ocp mp).
Local Notation cf := (mp_cf mp).
Local Notation orders := (mp_orders mp).
Local Notation n := (total_nodes orders).
Hypothesis Hmp : mpo_ok mp.
Hypothesis Hok : ocp_ok o npath nterm.
Hypothesis Hsc : scales_pos o.
Let Hsh := ok_shapes _ _ _ Hok.
Variables (w : nat -> nat -> R) (y : nat -> utraj) (rs : list (list R)).
Variable po : post (N := Rnum).
Hypothesis Erx : po_scale_x po = o_scale_x o.
Hypothesis Eru : po_scale_u po = o_scale_u o.
Hypothesis Era : po_scale_a po = o_scale_a o.
Hypothesis Ecf : po_cf po = cf.
Hypothesis Eor : po_orders po = orders.
Hypothesis Hseg : seg_nodes cf orders rs.
Hypothesis Hlrs : length rs = length orders.
Hypothesis Hgood : forall k q r, nth_error orders k = Some q -> nth_error rs k = Some r -> good_nodes (cf_tau0 cf) (cf_tau1 cf) q r.
Hypothesis Htr : forall ph, (ph < o_nph o)%nat -> exists f tr, nth_error (po_traj po) ph = Some f /\ f (po_x po) (po_sw po) = Ok tr /\
  traj_scaled mp tr (y ph) /\ length (tr_t tr) = n /\
  forall i k j, owned orders i k j -> nth i (tr_t tr) 0 = node_time cf (w ph) (y ph) k (nth j (nth k rs []) 0).
Local Notation sc := (po_scaling po).

Definition Px ph i s v := v = unit_of sc (o_scale_x o) s * y_x (y ph) i s.
Definition Pu ph i c v := v = unit_of sc (o_scale_u o) c * y_u (y ph) i c.
Definition Pt ph i v := forall k j, owned orders i k j -> v = node_time cf (w ph) (y ph) k (nth j (nth k rs []) 0).
(** what the code computes for parameters: entry (i, j) is parameter i divided by scale j *)
Definition Pa ph i j v := v = if sc then nth i (o_scale_a o) 0 * y_a (y ph) i
                              else nth i (o_scale_a o) 0 * y_a (y ph) i / nth j (o_scale_a o) 0.
Definition acols : nat := if sc then 1%nat else o_na o.

Lemma pos_sx s : (s < o_nx o)%nat -> 0 < nth s (o_scale_x o) 0.
Proof. intros H. apply (sp_x _ Hsc), nth_In. rewrite (sh_sx _ Hsh). exact H. Qed.
Lemma pos_su s : (s < o_nu o)%nat -> 0 < nth s (o_scale_u o) 0.
Proof. intros H. apply (sp_u _ Hsc), nth_In. rewrite (sh_su _ Hsh). exact H. Qed.

Lemma get_trajectories_ok ph : (ph < o_nph o)%nat -> exists d, get_trajectories po ph = Ok d /\
  stacked n (o_nx o) Px [ph] (pd_x d) /\ stacked n (o_nu o) Pu [ph] (pd_u d) /\ tstacked n Pt [ph] (pd_t d) /\
  stacked (o_na o) acols Pa [ph] (pd_a d) /\ beside (o_na o) acols Pa [ph] (pd_a d).
Proof.
  intros Hph. destruct (Htr ph Hph) as (f & tr & Ef & Etr & (Rx & Cx & Ru & Cu & La & Hx & Hu & Ha) & Lt & Ht).
  assert (One : forall q p, nth_error [ph] q = Some p -> q = 0%nat /\ p = ph).
  { intros [|q] p H; [split; [reflexivity|cbn in H; congruence]|destruct q; discriminate]. }
  unfold get_trajectories, at_. nred. rewrite Ef. cbn [bind]. rewrite Etr. cbn [bind].
  pose proof (sh_sx _ Hsh) as Sx. pose proof (sh_su _ Hsh) as Su. pose proof (sh_sa _ Hsh) as Sa.
  unfold acols, stacked, beside, tstacked, Px, Pu, Pt, Pa. destruct sc eqn:Es.
  - eexists. split; [reflexivity|]. cbn [pd_x pd_u pd_t pd_a length column nr nc mget unit_of].
    repeat split; try (nred; lia); intros; match goal with H : nth_error [ph] _ = Some _ |- _ => destruct (One _ _ H) as [-> ->] end; cbn [Nat.mul Nat.add]; auto.
  - destruct (bdiv_same (tr_x tr) (po_scale_x po)) as (qx & Eqx & Qrx & Qcx & Qx). { rewrite Erx. nred. lia. }
    destruct (bdiv_same (tr_u tr) (po_scale_u po)) as (qu & Equ & Qru & Qcu & Qu). { rewrite Eru. nred. lia. }
    destruct (bdiv_column (tr_a tr) (po_scale_a po)) as (qa & Eqa & Qra & Qca & Qa).
    nred. rewrite Eqx. cbn [bind]. rewrite Equ. cbn [bind]. rewrite Eqa. cbn [bind].
    eexists. split; [reflexivity|]. cbn [pd_x pd_u pd_t pd_a length unit_of].
    rewrite Erx in *. rewrite Eru in *. rewrite Era in *.
    repeat split; try (nred; lia); intros; match goal with H : nth_error [ph] _ = Some _ |- _ => destruct (One _ _ H) as [-> ->] end; cbn [Nat.mul Nat.add]; auto.
    + rewrite Qx, Hx by lia. pose proof (pos_sx j ltac:(lia)). nred. field. lra.
    + rewrite Qu, Hu by lia. pose proof (pos_su j ltac:(lia)). nred. field. lra.
    + rewrite Qa, Ha by (nred; lia). reflexivity.
    + rewrite Qa, Ha by (nred; lia). reflexivity.
Qed.

Lemma original_ok phases : phases <> [] -> (forall ph, In ph phases -> (ph < o_nph o)%nat) ->
  exists d, get_original_data po phases = Ok d /\
  stacked n (o_nx o) Px phases (pd_x d) /\ stacked n (o_nu o) Pu phases (pd_u d) /\ tstacked n Pt phases (pd_t d) /\
  stacked (o_na o) acols Pa phases (pd_a d).
Proof.
  intros Hne Hin. destruct phases as [|p0 rest]; [contradiction|].
  unfold get_original_data. cbn [at_ nth_error bind tl].
  destruct (get_trajectories_ok p0 (Hin p0 (or_introl eq_refl))) as (d & E & H1 & H2 & H3 & H4 & H5). rewrite E. cbn [bind].
  destruct (fold_phases (original_step po) (fun done d => stacked n (o_nx o) Px done (pd_x d) /\ stacked n (o_nu o) Pu done (pd_u d) /\
      tstacked n Pt done (pd_t d) /\ stacked (o_na o) acols Pa done (pd_a d)) (fun ph => (ph < o_nph o)%nat)) with (rest := rest) (done := [p0]) (d := d)
    as (d' & E' & H').
  - intros done e ph (G1 & G2 & G3 & G4) Hph. destruct (get_trajectories_ok ph Hph) as (dp & Ep & K1 & K2 & K3 & K4 & K5).
    unfold original_step. rewrite Ep. cbn [bind].
    destruct (vstack_ok _ _ _ _ _ _ _ G1 K1) as (mx & Ex & Sx). destruct (vstack_ok _ _ _ _ _ _ _ G2 K2) as (mu & Eu & Su).
    destruct (vstack_ok _ _ _ _ _ _ _ G4 K4) as (ma & Ea & Sa). pose proof (tapp_ok _ _ _ _ _ _ G3 K3) as St.
    rewrite Ex. cbn [bind]. rewrite Eu. cbn [bind]. rewrite Ea. cbn [bind]. eexists. split; [reflexivity|].
    cbn [pd_x pd_u pd_t pd_a]. auto.
  - auto.
  - intros; apply Hin; now right.
  - exists d'. split; [exact E'|]. exact H'.
Qed.
Lemma original_one ph : get_original_data po [ph] = get_trajectories po ph.
Proof. unfold get_original_data. cbn [at_ nth_error bind tl foldM]. now destruct (get_trajectories po ph). Qed.

(** ** Interpolation *)
Lemma edge_time_gen ph tr : (forall i k j, owned orders i k j -> nth i (tr_t tr) 0 = node_time cf (w ph) (y ph) k (nth j (nth k rs []) 0)) ->
  forall k, (k <= length orders)%nat -> nth (offset orders k) (tr_t tr) 0 = seg_start (w ph) (y ph) k.
Proof.
  intros Ht k Hk. pose proof (co_taus _ (mo_cfg _ Hmp)) as Htau. destruct k as [|k].
  - rewrite offset_0. assert (Hne : (0 < length orders)%nat) by (pose proof (mo_len _ Hmp); pose proof (mo_nseg _ Hmp); lia).
    destruct (nth_error orders 0) as [q|] eqn:Eq; [|apply nth_error_None in Eq; lia].
    rewrite (Ht 0%nat 0%nat 0%nat).
    + destruct (Hgood 0%nat q (nth 0 rs []) Eq) as (_ & _ & E0 & _); [apply nth_error_nth'; lia|]. rewrite E0.
      rewrite node_time_seg by exact Htau. unfold seg_time, seg_start, seg_h. cbn [Rsum]. nred. field. lra.
    + exists q. repeat split; auto; try lia. now rewrite offset_0.
  - destruct (nth_error orders k) as [q|] eqn:Eq; [|apply nth_error_None in Eq; lia].
    assert (Hq : (1 <= q)%nat) by (apply (mo_pos _ Hmp); eapply nth_error_In; eauto).
    rewrite (Ht _ k q).
    + destruct (Hgood k q (nth k rs []) Eq) as (_ & _ & _ & E1); [apply nth_error_nth'; lia|]. rewrite E1.
      rewrite node_time_seg by exact Htau. unfold seg_time, seg_start, seg_h. cbn [Rsum]. nred. field. lra.
    + exists q. repeat split; auto; try lia. now apply offset_S.
Qed.

Section Taus.
Variable taus : list (list R).
Hypothesis Htl : length taus = length orders.
Local Notation M := (count_pts taus).
Local Notation off := (fun k => length (concat (firstn k taus))).
Lemma off_offset (ls : list (list R)) : forall k, length (concat (firstn k ls)) = offset (map (@length R) ls) k.
Proof. induction ls as [|l ls IH]; intros [|k]; cbn; auto. rewrite app_length, IH. reflexivity. Qed.
Definition Ix ph i s v := forall k j c, i = (off k + j)%nat -> (k < length orders)%nat -> (j < length (nth k taus []))%nat ->
  seg_interp orders k (nth k rs []) (fun i => y_x (y ph) i s) c -> v = unit_of sc (o_scale_x o) s * peval c (nth j (nth k taus []) 0).
Definition Iu ph i s v := forall k j c, i = (off k + j)%nat -> (k < length orders)%nat -> (j < length (nth k taus []))%nat ->
  seg_interp orders k (nth k rs []) (fun i => y_u (y ph) i s) c -> v = unit_of sc (o_scale_u o) s * peval c (nth j (nth k taus []) 0).
Definition It ph i v := forall k j, i = (off k + j)%nat -> (k < length orders)%nat -> (j < length (nth k taus []))%nat ->
  v = node_time cf (w ph) (y ph) k (nth j (nth k taus []) 0).

Lemma interp_matrix_ok : exists I, comp_interp (po_cf po) taus (po_orders po) = Ok I /\
  forall ph, (ph < o_nph o)%nat -> exists d, interp_one po I taus ph = Ok d /\
  stacked M (o_nx o) Ix [ph] (pd_x d) /\ stacked M (o_nu o) Iu [ph] (pd_u d) /\ tstacked M It [ph] (pd_t d) /\
  beside (o_na o) acols Pa [ph] (pd_a d).
Proof.
  destruct (comp_interp_ok cf taus orders rs Hseg Htl) as (I & EI & Ir & Ic & HI).
  exists I. split; [rewrite Ecf, Eor; exact EI|]. intros ph Hph.
  pose proof (co_taus _ (mo_cfg _ Hmp)) as Htau.
  destruct (get_trajectories_ok ph Hph) as (d & E & (H1 & H1' & H1x) & (H2 & H2' & H2x) & (H3 & H3x) & H4 & H5).
  unfold interp_one. rewrite original_one, E. cbn [bind]. unfold dot. cbn [length] in *. nred. rewrite Ic.
  rewrite (proj2 (Nat.eqb_eq _ _)) by lia. cbn [bind]. rewrite (proj2 (Nat.eqb_eq _ _)) by lia. cbn [bind].
  rewrite Eor, Ecf. rewrite (time_grid_thm _ taus orders) by (auto; try lia; nred; lra). cbn [bind]. eexists. split; [reflexivity|].
  cbn [pd_x pd_u pd_t pd_a].
  assert (EM : M = offset (map (@length R) taus) (length taus)) by (unfold count_pts; now rewrite ResidR.concat_length).
  assert (One : forall q p, nth_error [ph] q = Some p -> q = 0%nat /\ p = ph).
  { intros [|q] p H; [split; [reflexivity|cbn in H; congruence]|destruct q; discriminate]. }
  assert (Hnth : forall k, (k < length orders)%nat -> exists q, nth_error orders k = Some q /\ nth_error rs k = Some (nth k rs []) /\ nth_error taus k = Some (nth k taus [])).
  { intros k Hk. destruct (nth_error orders k) as [q|] eqn:Eq; [|apply nth_error_None in Eq; lia]. exists q. split; [reflexivity|].
    split; apply nth_error_nth'; lia. }
  split; [|split; [|split; [|exact H5]]].
  - split; [cbn [mmul nr length]; nred; lia|]. split; [exact H1'|].
    intros q p i s Hq Hi Hs. destruct (One _ _ Hq) as [-> ->]. cbn [Nat.mul Nat.add]. intros k j c -> Hk Hj Hc.
    destruct (Hnth k Hk) as (q & Eq & Er & Et).
    apply (mmul_scaled I _ n _ _ _ (fun i => y_x (y ph) i s)); auto.
    + intros i' Hi'. specialize (H1x 0%nat ph i' s eq_refl Hi' Hs). cbn [Nat.mul Nat.add] in H1x. exact H1x.
    + rewrite off_offset. apply (HI k q (nth k rs []) (nth k taus []) j); auto.
  - split; [cbn [mmul nr length]; nred; lia|]. split; [exact H2'|].
    intros q p i s Hq Hi Hs. destruct (One _ _ Hq) as [-> ->]. cbn [Nat.mul Nat.add]. intros k j c -> Hk Hj Hc.
    destruct (Hnth k Hk) as (q & Eq & Er & Et).
    apply (mmul_scaled I _ n _ _ _ (fun i => y_u (y ph) i s)); auto.
    + intros i' Hi'. specialize (H2x 0%nat ph i' s eq_refl Hi' Hs). cbn [Nat.mul Nat.add] in H2x. exact H2x.
    + rewrite off_offset. apply (HI k q (nth k rs []) (nth k taus []) j); auto.
  - set (L := map (fun k => map (time_at (cf_tau0 cf) (cf_tau1 cf) (pd_t d) orders k) (nth k taus [])) (seq 0 (length orders))).
    assert (LL : map (@length R) L = map (@length R) taus).
    { unfold L. rewrite map_map. apply (list_eq_nth _ _ 0%nat); rewrite !map_length, seq_length; [lia|]. intros i Hi.
      rewrite (nth_map_in _ _ _ _ 0%nat) by (rewrite seq_length; lia). rewrite (nth_map_in _ taus _ _ []) by lia.
      rewrite seq_nth by lia. apply map_length. }
    assert (LN : length L = length orders) by (unfold L; now rewrite map_length, seq_length).
    split; [cbn [length]; rewrite ResidR.concat_length, LL, EM, LN, Htl; lia|].
    intros q p i Hq Hi. destruct (One _ _ Hq) as [-> ->]. cbn [Nat.mul Nat.add]. intros k j -> Hk Hj.
    assert (Ek : nth k L [] = map (time_at (cf_tau0 cf) (cf_tau1 cf) (pd_t d) orders k) (nth k taus [])).
    { unfold L. rewrite (nth_map_in _ _ _ _ 0%nat) by (rewrite seq_length; lia). now rewrite seq_nth by lia. }
    rewrite off_offset, <- LL, nth_concat_off by (try rewrite Ek, map_length; lia). rewrite Ek.
    rewrite (nth_map_in _ _ _ _ 0) by lia.
    assert (Ht : forall i k j, owned orders i k j -> nth i (pd_t d) 0 = node_time cf (w ph) (y ph) k (nth j (nth k rs []) 0)).
    { intros i k' j' Ho. specialize (H3x 0%nat ph i eq_refl). cbn [Nat.mul Nat.add] in H3x. apply H3x; auto. eapply owned_lt; eauto. }
    rewrite node_time_seg by exact Htau. unfold time_at.
    pose proof (edge_time_gen ph (Traj (zeros 0 0) (zeros 0 0) (pd_t d) 0 0 []) Ht) as ET. cbn [tr_t] in ET.
    rewrite !ET by lia. unfold seg_time, seg_start, seg_h, frac. cbn [Rsum]. nred. field. lra.
Qed.

Lemma interpolated_ok phases : taus <> [] -> phases <> [] -> (forall ph, In ph phases -> (ph < o_nph o)%nat) ->
  exists d, get_interpolated_data po phases taus = Ok d /\
  stacked M (o_nx o) Ix phases (pd_x d) /\ stacked M (o_nu o) Iu phases (pd_u d) /\ tstacked M It phases (pd_t d) /\
  beside (o_na o) acols Pa phases (pd_a d).
Proof.
  intros Hnt Hne Hin. destruct phases as [|p0 rest]; [contradiction|].
  assert (E0 : get_interpolated_data po (p0 :: rest) taus =
    (I <- comp_interp (po_cf po) taus (po_orders po) ;; d <- interp_one po I taus p0 ;; foldM (interp_step po I taus) rest d)).
  { clear Htl. destruct taus; [contradiction|reflexivity]. }
  rewrite E0. clear E0.
  destruct interp_matrix_ok as (I & EI & Hone). rewrite EI. cbn [bind].
  destruct (Hone p0 (Hin p0 (or_introl eq_refl))) as (d & E & H1 & H2 & H3 & H4). rewrite E. cbn [bind].
  destruct (fold_phases (interp_step po I taus) (fun done d => stacked M (o_nx o) Ix done (pd_x d) /\ stacked M (o_nu o) Iu done (pd_u d) /\
      tstacked M It done (pd_t d) /\ beside (o_na o) acols Pa done (pd_a d)) (fun ph => (ph < o_nph o)%nat)) with (rest := rest) (done := [p0]) (d := d)
    as (d' & E' & H').
  - intros done e ph (G1 & G2 & G3 & G4) Hph. destruct (Hone ph Hph) as (dp & Ep & K1 & K2 & K3 & K4).
    unfold interp_step. nred. rewrite Ep. cbn [bind].
    destruct (vstack_ok _ _ _ _ _ _ _ G1 K1) as (mx & Ex & Sx). destruct (vstack_ok _ _ _ _ _ _ _ G2 K2) as (mu & Eu & Su).
    destruct (hstack_ok _ _ _ _ _ _ _ G4 K4) as (ma & Ea & Sa). pose proof (tapp_ok _ _ _ _ _ _ G3 K3) as St.
    rewrite Ex. cbn [bind]. rewrite Eu. cbn [bind]. rewrite Ea. cbn [bind]. eexists. split; [reflexivity|].
    cbn [pd_x pd_u pd_t pd_a]. auto.
  - auto.
  - intros; apply Hin; now right.
  - exists d'. split; [exact E'|]. exact H'.
Qed.
End Taus.

Lemma default_taus_ok : orders <> [] -> default_taus po = Ok (map (default_points (cf_tau0 cf) (cf_tau1 cf)) (seq 0 (length orders))).
Proof.
  intros Hne. unfold default_taus. rewrite Ecf, Eor. destruct Hseg as [Ers _].
  set (L := linspace (N := Rnum) (cf_tau0 cf) (cf_tau1 cf) 50).
  assert (EL : L = map (fun i => cf_tau0 cf + (cf_tau1 cf - cf_tau0 cf) * (INR i / 49)) (seq 0 50)).
  { apply (list_eq_nth _ _ 0); unfold L; [rewrite map_length, seq_length; apply linspace_length|].
    intros i Hi. rewrite linspace_length in Hi. rewrite nth_linspace by lia. rewrite (nth_map_in _ _ _ _ 0%nat) by (rewrite seq_length; lia).
    rewrite seq_nth by lia. cbn [Nat.add Nat.sub]. now rewrite INR_IZR_INZ with (n := 49%nat). }
  assert (Em : mapM (fun p => r <- c_roots cf p ;; l <- get_interpolation_taus po nodes_per_seg (Some r) "uniform" ;; Ok (tl l)) orders
             = Ok (map (fun _ => tl L) orders)).
  { revert Ers. clear Hseg Hlrs Hgood Htr Eor Hne. generalize rs as rr. induction orders as [|p ps IH]; intros rr E; [reflexivity|].
    cbn [mapM] in *. nred. destruct (c_roots cf p) as [r|]; [|discriminate E]. cbn [bind] in *. 
    match type of E with bind ?m _ = _ => destruct m as [r'|] eqn:Ep; [|discriminate E] end. rewrite (IH r' eq_refl). cbn [bind].
    unfold get_interpolation_taus. rewrite Ecf. cbn [String.eqb Ascii.eqb Bool.eqb bind map]. reflexivity. }
  nred. rewrite Em. cbn [bind]. destruct orders as [|p ps]; [contradiction|]. cbn [map length seq]. f_equal.
  assert (Etl : tl L = map (fun i => cf_tau0 cf + (cf_tau1 cf - cf_tau0 cf) * (INR i / 49)) (seq 1 49)) by (rewrite EL; reflexivity).
  f_equal.
  - rewrite Etl. unfold default_points. change (seq 0 50) with (0%nat :: seq 1 49). cbn [map]. f_equal. cbn [INR]. nred. lra.
  - rewrite Etl. apply (list_eq_nth _ _ []); rewrite ?map_length, ?seq_length; [reflexivity|]. intros i Hi.
    rewrite (nth_map_in _ ps _ _ 0%nat) by lia. rewrite (nth_map_in _ (seq 1 (length ps)) _ _ 0%nat) by (rewrite seq_length; lia).
    rewrite seq_nth by lia. reflexivity.
Qed.

End Obj.
