(** The whole nonlinear program as a function of the decision vector (proofs). *)
From Coq Require Import Reals Lia Lra Bool Arith.
From Coquelicot Require Import Coquelicot.
From Coq Require Import List.
From Verif Require Import Num PyList Mat Poly Roots Colloc Ocp Transcribe Spec SpecOcp NumR ListR PolyR CollocR CompR MeshR BlockR DiscR.
Import ListNotations.
Open Scope R_scope.

(** ** composite weights, segment by segment *)
Lemma tail_sum a b : forall orders rs, length rs = length orders ->
  (forall k p r, nth_error orders k = Some p -> nth_error rs k = Some r -> length r = S p) ->
  forall g : nat -> R,
  let tail := flat_map (fun r => tl (wts a b r)) rs in
  Rsum (length tail) (fun j => nth j tail 0 * g j) =
  Rsum (length orders) (fun k => Rsum (nth k orders 0%nat)
    (fun j => ell_int (nth k rs []) a b (S j) * g (offset orders k + j)%nat)).
Proof.
  induction orders as [|p orders IH]; intros rs Hl Hn g tail.
  - destruct rs; [|discriminate]. reflexivity.
  - destruct rs as [|r rs]; [discriminate|].
    pose proof (Hn 0%nat p r eq_refl eq_refl) as Hlr.
    specialize (IH rs ltac:(cbn in Hl; lia) (fun k => Hn (S k)) (fun j => g (p + j)%nat)). cbn zeta in IH.
    assert (Hlw : length (tl (wts a b r)) = p).
    { unfold wts. rewrite Hlr. cbn. rewrite map_length, seq_length. reflexivity. }
    unfold tail. cbn [flat_map]. rewrite app_length, Rsum_app, Hlw.
    cbn [length]. rewrite Rsum_S_l. cbn [nth offset]. f_equal.
    + apply Rsum_ext. intros j Hj. rewrite app_nth1 by lia. cbn [Nat.add]. f_equal.
      unfold wts. rewrite Hlr. cbn [seq map tl].
      rewrite (nth_indep _ 0 (ell_int r a b 0)) by (rewrite map_length, seq_length; auto).
      rewrite map_nth. rewrite seq_nth by auto. reflexivity.
    + erewrite Rsum_ext.
      2:{ intros j Hj. rewrite app_nth2 by lia. rewrite Hlw. replace (p + j - p)%nat with j by lia. reflexivity. }
      rewrite IH. apply Rsum_ext. intros k Hk. apply Rsum_ext. intros j Hj. f_equal. f_equal. lia.
Qed.
Lemma comp_quad_segs cf orders rs a b : seg_nodes cf orders rs -> orders <> [] ->
  integ_exact (l_integ (cf_lib cf)) ->
  exists W, comp_quad cf orders a b = Ok W /\ length W = total_nodes orders /\
  forall ys, Rsum (total_nodes orders) (fun j => nth j W 0 * ys j) =
    ell_int (nth 0 rs []) a b 0 * ys 0%nat +
    Rsum (length orders) (fun k => Rsum (nth k orders 0%nat)
      (fun j => ell_int (nth k rs []) a b (S j) * ys (offset orders k + S j)%nat)).
Proof.
  intros Hs Hne Hig. destruct (comp_quad_eq cf orders rs a b Hs Hne Hig) as (w0 & Hw0 & E).
  destruct Hs as [Hrs Hn]. destruct (mapM_inv _ _ _ Hrs) as [Hlen _].
  assert (Hn' : forall k p r, nth_error orders k = Some p -> nth_error rs k = Some r -> length r = S p).
  { intros k p r Hp Hr. destruct (Hn k p r Hp Hr) as (_ & H & _). exact H. }
  eexists. split; [exact E|].
  pose proof (wts_tail_length a b orders rs Hlen Hn') as Hlt.
  set (tail := flat_map (fun r => tl (wts a b r)) rs) in *.
  split; [cbn [length]; unfold total_nodes; nred; lia|].
  intros ys. unfold total_nodes. replace (offset orders (length orders) + 1)%nat with (S (length tail)) by lia.
  rewrite Rsum_S_l. cbn [nth]. f_equal.
  - rewrite (nth_error_nth _ _ [] Hw0). f_equal. unfold wts.
    destruct orders as [|p0 os]; [congruence|]. pose proof (Hn' 0%nat p0 w0 eq_refl Hw0) as Hl0. rewrite Hl0. reflexivity.
  - transitivity (Rsum (length tail) (fun j => nth j tail 0 * ys (S j))); [reflexivity|].
    etransitivity; [exact (tail_sum a b orders rs Hlen Hn' (fun j => ys (S j)))|].
    apply Rsum_ext. intros k Hk. apply Rsum_ext. intros j Hj. f_equal. f_equal. lia.
Qed.

(** ** lists in chunks *)
Lemma nth_skipn {A} n (l : list A) i d : nth i (skipn n l) d = nth (n + i) l d.
Proof. revert l; induction n; intros [|a l]; cbn; auto; destruct i; reflexivity. Qed.
Lemma nth_firstn_lt {A} n (l : list A) i d : (i < n)%nat -> nth i (firstn n l) d = nth i l d.
Proof. revert l i; induction n; intros [|a l] [|i] H; cbn; auto; try lia; apply IHn; lia. Qed.
Lemma skipn_plus {A} a b (l : list A) : skipn (a + b) l = skipn b (skipn a l).
Proof. revert l; induction a; intros [|x l]; cbn; auto. destruct b; reflexivity. Qed.
Lemma concat_chunks {A} n m (z : list A) : length z = (m * n)%nat ->
  List.concat (map (fun k => firstn n (skipn (k * n) z)) (seq 0 m)) = z.
Proof.
  revert z; induction m as [|m IH]; intros z Hz; [destruct z; [reflexivity|discriminate]|].
  cbn [seq map List.concat]. rewrite <- seq_shift, map_map.
  rewrite (map_ext _ (fun k => firstn n (skipn (k * n) (skipn n z)))).
  - rewrite IH by (rewrite skipn_length; lia). cbn [Nat.mul skipn]. apply firstn_skipn.
  - intros k. f_equal. rewrite <- skipn_plus. f_equal.
Qed.
Lemma mapM_exists {A B} (f : A -> res B) (P : A -> B -> Prop) l :
  (forall a, In a l -> exists b, f a = Ok b /\ P a b) -> exists bs, mapM f l = Ok bs /\ Forall2 P l bs.
Proof.
  induction l as [|a l IH]; intros H; [exists []; split; [reflexivity|constructor]|].
  destruct (H a) as (b & E & Hb); [left; auto|]. destruct IH as (bs & Es & Hs); [intros; apply H; right; auto|].
  exists (b :: bs). cbn [mapM]. rewrite E. cbn [bind]. rewrite Es. split; [reflexivity|constructor; auto].
Qed.
Lemma Forall2_nth {A B} (P : A -> B -> Prop) l m da db : Forall2 P l m ->
  length l = length m /\ forall i, (i < length l)%nat -> P (nth i l da) (nth i m db).
Proof.
  induction 1 as [|a b l m H H2 [IHl IH]]; [split; [reflexivity|intros i Hi; cbn in Hi; lia]|].
  split; [cbn; lia|]. intros [|i] Hi; [exact H|]. cbn in *. apply IH. lia.
Qed.
Lemma Forall2_seq {B} (P : nat -> B -> Prop) n bs db : Forall2 P (seq 0 n) bs ->
  length bs = n /\ forall i, (i < n)%nat -> P i (nth i bs db).
Proof.
  intros H. destruct (Forall2_nth P _ _ 0%nat db H) as [Hl Hn]. rewrite seq_length in *. split; [auto|].
  intros i Hi. specialize (Hn i Hi). rewrite seq_nth in Hn by auto. exact Hn.
Qed.

(** ** the decision vector *)
Section Nlp.
Variable mp : mpo Rnum.
Hypothesis Hmp : mpo_ok mp.
Local Notation o := (mp_ocp mp).
Local Notation cf := (mp_cf mp).
Local Notation orders := (mp_orders mp).
Local Notation NN := (total_nodes orders).
Variables npath nterm : nat -> option nat.
Hypothesis Hok : ocp_ok o npath nterm.
Hypothesis Hsc : scales_pos o.
Variables (z p : list R).
Hypothesis Hz : length z = (o_nph o * nvars mp)%nat.
Hypothesis Hp : length p = (o_nph o * mp_nseg mp)%nat.
Let Hsh := ok_shapes _ _ _ Hok.

Lemma zlen_nvars : zlen mp = nvars mp.
Proof. unfold zlen, nvars. rewrite npoints_total. reflexivity. Qed.

Lemma unpack_rep ph : (ph < o_nph o)%nat -> rep mp (unpack mp z ph) (user_traj mp z ph).
Proof.
  intros Hph. unfold unpack. rewrite zlen_nvars, npoints_total.
  assert (Hb : (ph * nvars mp + nvars mp <= length z)%nat) by (rewrite Hz; nia).
  assert (Env : nvars mp = (NN * o_nx o + NN * o_nu o + 2 + o_na o)%nat) by reflexivity.
  split; cbn [v_X v_U v_t0 v_tf v_A nr nc mget user_traj y_x y_u y_t0 y_tf y_a]; try reflexivity.
  - rewrite firstn_length, !skipn_length. nred. lia.
  - intros i s Hi Hs. nred. rewrite nth_skipn. pose proof (nth_pos _ s _ (sp_x _ Hsc) (sh_sx _ Hsh) Hs) as Hpos. nred.
    rewrite Nat.add_assoc. field. lra.
  - intros i s Hi Hs. nred. rewrite nth_skipn. pose proof (nth_pos _ s _ (sp_u _ Hsc) (sh_su _ Hsh) Hs) as Hpos. nred.
    rewrite !Nat.add_assoc. field. lra.
  - nred. rewrite nth_skipn. pose proof (sp_t _ Hsc). nred. rewrite !Nat.add_assoc. field. lra.
  - nred. rewrite nth_skipn. pose proof (sp_t _ Hsc). nred. rewrite !Nat.add_assoc. field. lra.
  - intros i Hi. nred. rewrite nth_firstn_lt, !nth_skipn by auto.
    pose proof (nth_pos _ i _ (sp_a _ Hsc) (sh_sa _ Hsh) Hi) as Hpos. nred. rewrite !Nat.add_assoc. field. lra.
Qed.

Lemma nth_app_at {A} (l m : list A) i d : nth (length l + i) (l ++ m) d = nth i m d.
Proof. rewrite app_nth2 by lia. f_equal. lia. Qed.

(** the variables of a phase, in order, are the chunk of z *)
Lemma firstn_plus {A} a b (l : list A) : firstn (a + b) l = firstn a l ++ firstn b (skipn a l).
Proof. revert l; induction a; intros [|x l]; cbn; auto. - destruct b; reflexivity. - f_equal. apply IHa. Qed.
Lemma phase_vars ph : (ph < o_nph o)%nat ->
  let v := unpack mp z ph in
  mvec (v_X v) ++ mvec (v_U v) ++ [v_t0 v; v_tf v] ++ v_A v = firstn (nvars mp) (skipn (ph * nvars mp) z).
Proof.
  intros Hph v.
  assert (Hb : (ph * nvars mp + nvars mp <= length z)%nat) by (rewrite Hz; nia).
  assert (Env : nvars mp = (NN * o_nx o + NN * o_nu o + 2 + o_na o)%nat) by reflexivity.
  set (zp := skipn (ph * nvars mp) z).
  assert (Hlzp : (nvars mp <= length zp)%nat) by (unfold zp; rewrite skipn_length; lia).
  assert (EX : mvec (v_X v) = firstn (NN * o_nx o) zp).
  { apply (list_eq_nth _ _ 0).
    - rewrite length_mvec, firstn_length. unfold v, unpack. cbn [v_X nr nc]. rewrite npoints_total. nred. lia.
    - rewrite length_mvec. unfold v, unpack. cbn [v_X nr nc]. rewrite npoints_total, zlen_nvars. intros i Hi.
      destruct (divide_index NN (o_nx o) i Hi) as (s & j & -> & Hs & Hj).
      nred; rewrite (nth_mvec_n _ NN j s) by (cbn [nr nc]; auto). cbn [mget]. nred. rewrite nth_firstn_lt by nia. reflexivity. }
  assert (EU : mvec (v_U v) = firstn (NN * o_nu o) (skipn (NN * o_nx o) zp)).
  { apply (list_eq_nth _ _ 0).
    - rewrite length_mvec, firstn_length, skipn_length. unfold v, unpack. cbn [v_U nr nc]. rewrite npoints_total. nred. lia.
    - rewrite length_mvec. unfold v, unpack. cbn [v_U nr nc]. rewrite npoints_total, zlen_nvars. intros i Hi.
      destruct (divide_index NN (o_nu o) i Hi) as (s & j & -> & Hs & Hj).
      nred; rewrite (nth_mvec_n _ NN j s) by (cbn [nr nc]; auto). cbn [mget]. nred. rewrite nth_firstn_lt by nia. unfold zp. rewrite !nth_skipn.
      f_equal. lia. }
  rewrite EX, EU.
  assert (Et : [v_t0 v; v_tf v] = firstn 2 (skipn (NN * o_nu o) (skipn (NN * o_nx o) zp))).
  { apply (list_eq_nth _ _ 0).
    - rewrite firstn_length, !skipn_length. cbn [length]. nred. lia.
    - intros i Hi. cbn [length] in Hi. rewrite nth_firstn_lt, !nth_skipn by lia.
      unfold v, unpack. cbn [v_t0 v_tf]. rewrite npoints_total, zlen_nvars. fold zp.
      destruct i as [|[|i]]; [| |lia]; cbn [nth]; nred; unfold zp; f_equal; lia. }
  rewrite Et.
  assert (EA : v_A v = firstn (o_na o) (skipn 2 (skipn (NN * o_nu o) (skipn (NN * o_nx o) zp)))).
  { unfold v, unpack. cbn [v_A]. rewrite npoints_total, zlen_nvars, <- !skipn_plus. fold zp. unfold zp. rewrite <- !skipn_plus. f_equal. f_equal. nred. lia. }
  rewrite EA, Env, <- !Nat.add_assoc, !firstn_plus. reflexivity.
Qed.

(** ** links between phases *)
Section Events.
Variables (vs : list (pvars Rnum)) (ys : nat -> utraj).
Hypothesis Hlen : length vs = o_nph o.
Hypothesis Hvs : forall i d, (i < o_nph o)%nat -> rep mp (nth i vs d) (ys i).

Lemma con_events_ok : (1 < o_nph o)%nat ->
  exists E, con_events mp vs = Ok E /\ balanced E /\
    length (c_g E) = (length (o_links o) * (o_nx o + o_nu o + 1))%nat /\
    (sat E <-> forall k i j, nth_error (o_links o) k = Some (i, j) -> link_ok mp ys k i j).
Proof.
  intros Hn. unfold con_events. rewrite npoints_total. nred.
  set (n := length (o_links o)). set (lst := (NN - 1)%nat).
  assert (HNN : (1 <= NN)%nat) by (unfold total_nodes; lia).
  assert (Hlst : (lst < NN)%nat) by (unfold lst; lia).
  (* the differences *)
  set (d0 := Pvars (N := Rnum) (Mat (N := Rnum) 0 0 (fun _ _ => 0)) (Mat (N := Rnum) 0 0 (fun _ _ => 0)) 0 0 []).
  set (dx := fun ij : nat * nat => vsub (N := Rnum) (mrow (v_X (nth (snd ij) vs d0)) 0) (mrow (v_X (nth (fst ij) vs d0)) lst)).
  set (du := fun ij : nat * nat => vsub (N := Rnum) (mrow (v_U (nth (snd ij) vs d0)) 0) (mrow (v_U (nth (fst ij) vs d0)) lst)).
  set (dt := fun ij : nat * nat => v_t0 (nth (snd ij) vs d0) - v_tf (nth (fst ij) vs d0)).
  rewrite (mapM_ok _ (fun ij => (dx ij, du ij, dt ij))).
  2:{ intros [i j] Hij. destruct (ok_links _ _ _ Hok i j Hij) as [Hi Hj].
    rewrite (at_ok vs i d0) by (nred; lia). cbn [bind]. rewrite (at_ok vs j d0) by (nred; lia). reflexivity. }
  cbn [bind].
  destruct (Nat.eqb_spec n 0) as [E0|_].
  { pose proof (ok_links_some _ _ _ Hok Hn) as H. destruct (o_links o); [congruence|discriminate]. }
  cbn [bind].
  pose proof (ok_links_len _ _ _ Hok) as Hll. fold n in Hll.
  destruct (sh_lbe _ Hsh) as [_ Hlbe]. destruct (sh_ube _ Hsh) as [_ Hube].
  specialize (Hlbe Hn). specialize (Hube Hn). destruct Hlbe as [Hlb1 Hlb2]. destruct Hube as [Hub1 Hub2].
  assert (Eb : forall m : list (list (ext R)), length m = (o_nph o - 1)%nat ->
    mapM (fun k => b <- at_ m k ;; Ok (map2 (escale (N := Rnum)) b (o_scale_x o))) (seq 0 n) =
    Ok (map (fun k => map2 (escale (N := Rnum)) (nth k m []) (o_scale_x o)) (seq 0 n))).
  { intros m Hm. apply mapM_ok. intros k Hk. apply in_seq in Hk. rewrite (at_ok m k []) by (nred; lia). reflexivity. }
  pose proof (Eb _ Hlb1) as E1. pose proof (Eb _ Hub1) as E2. nred. rewrite E1. cbn [bind]. rewrite E2. cbn [bind]. clear E1 E2 Eb.
  rewrite !map_map.

  set (LX := map (fun k => map2 (escale (N := Rnum)) (nth k (o_lbe o) []) (o_scale_x o)) (seq 0 n)).
  set (UX := map (fun k => map2 (escale (N := Rnum)) (nth k (o_ube o) []) (o_scale_x o)) (seq 0 n)).
  set (cx := Con (N := Rnum) (List.concat (map dx (o_links o))) (List.concat LX) (List.concat UX)).
  set (zu := repeat (Fin 0) (n * o_nu o)). set (zt := repeat (Fin 0) n).
  set (cu := Con (N := Rnum) (List.concat (map du (o_links o))) zu zu).
  set (ct := Con (N := Rnum) (map dt (o_links o)) zt zt).
  (* one link *)
  set (l0 := (0, 0)%nat : nat * nat).
  assert (Hin : forall k, (k < n)%nat -> (fst (nth k (o_links o) l0) < o_nph o /\ snd (nth k (o_links o) l0) < o_nph o)%nat).
  { intros k Hk. pose proof (nth_In (o_links o) l0 Hk) as H. destruct (nth k (o_links o) l0) as [i j].
    exact (ok_links _ _ _ Hok i j H). }
  assert (Hldx : forall ij, In ij (o_links o) -> length (dx ij) = o_nx o).
  { intros [i j] H. destruct (ok_links _ _ _ Hok i j H) as [Hi Hj]. unfold dx. cbn [fst snd].
    unfold vsub, mrow. rewrite length_map2, !map_length, !seq_length.
    rewrite (rp_ncX _ _ _ (Hvs j d0 Hj)), (rp_ncX _ _ _ (Hvs i d0 Hi)). lia. }
  assert (Hldu : forall ij, In ij (o_links o) -> length (du ij) = o_nu o).
  { intros [i j] H. destruct (ok_links _ _ _ Hok i j H) as [Hi Hj]. unfold du. cbn [fst snd].
    unfold vsub, mrow. rewrite length_map2, !map_length, !seq_length.
    rewrite (rp_ncU _ _ _ (Hvs j d0 Hj)), (rp_ncU _ _ _ (Hvs i d0 Hi)). lia. }
  assert (Hgx : length (List.concat (map dx (o_links o))) = (n * o_nx o)%nat).
  { rewrite <- flat_map_concat_map. rewrite (length_flat_map_const dx (o_nx o)) by auto. reflexivity. }
  assert (Hgu : length (List.concat (map du (o_links o))) = (n * o_nu o)%nat).
  { rewrite <- flat_map_concat_map. rewrite (length_flat_map_const du (o_nu o)) by auto. reflexivity. }
  assert (HlB : forall m : list (list (ext R)), length m = (o_nph o - 1)%nat -> (forall row, In row m -> length row = o_nx o) ->
     forall k, (k < n)%nat -> length (map2 (escale (N := Rnum)) (nth k m []) (o_scale_x o)) = o_nx o).
  { intros m Hm Hrow k Hk. rewrite length_map2. pose proof (sh_sx _ Hsh) as E. nred. rewrite E.
    rewrite (Hrow (nth k m [])) by (apply nth_In; lia). lia. }
  assert (HB : forall m : list (list (ext R)), length m = (o_nph o - 1)%nat -> (forall row, In row m -> length row = o_nx o) ->
     let L := List.concat (map (fun k => map2 (escale (N := Rnum)) (nth k m []) (o_scale_x o)) (seq 0 n)) in
     length L = (n * o_nx o)%nat /\
     forall k s, (k < n)%nat -> (s < o_nx o)%nat -> nth (k * o_nx o + s) L NaN = escale (N := Rnum) (nth s (nth k m []) NaN) (nth s (o_scale_x o) 0)).
  { intros m Hm Hrow. cbn zeta. rewrite <- flat_map_concat_map. split.
    - rewrite (length_flat_map_seq _ (o_nx o)); [reflexivity|]. apply HlB; auto.
    - intros k s Hk Hs. rewrite (nth_flat_map_seq _ (o_nx o) n); auto.
      rewrite (nth_map2 _ _ _ _ _ NaN 0); [reflexivity| |].
      + pose proof (Hrow (nth k m []) ltac:(apply nth_In; lia)) as E. nred. lia.
      + pose proof (sh_sx _ Hsh) as E. nred. rewrite E. auto. }
  destruct (HB _ Hlb1 Hlb2) as [HLX HLXn]. destruct (HB _ Hub1 Hub2) as [HUX HUXn]. fold LX in HLX, HLXn. fold UX in HUX, HUXn.
  assert (Bx : balanced cx) by (split; [exact (eq_trans HLX (eq_sym Hgx))|exact (eq_trans HUX (eq_sym Hgx))]).
  assert (Bu : balanced cu) by (split; unfold cu; cbn [c_g c_lo c_hi]; unfold zu; rewrite repeat_length; exact (eq_sym Hgu)).
  assert (Bt : balanced ct) by (split; unfold ct; cbn [c_g c_lo c_hi]; unfold zt; rewrite repeat_length, map_length; reflexivity).
  assert (Sx : sat cx <-> forall k s, (k < n)%nat -> (s < o_nx o)%nat ->
     within (nth s (nth k (o_lbe o) []) NaN) (nth s (nth k (o_ube o) []) NaN)
       (y_x (ys (snd (nth k (o_links o) l0))) 0 s - y_x (ys (fst (nth k (o_links o) l0))) lst s)).
  { assert (Hv : forall k s, (k < n)%nat -> (s < o_nx o)%nat -> nth (k * o_nx o + s) (c_g cx) 0 =
      nth s (o_scale_x o) 0 * (y_x (ys (snd (nth k (o_links o) l0))) 0 s - y_x (ys (fst (nth k (o_links o) l0))) lst s)).
    { intros k s Hk Hs. cbn [cx c_g]. rewrite <- flat_map_concat_map.
      rewrite (nth_flat_map_const dx (o_nx o) _ _ l0) by auto.
      destruct (Hin k Hk) as [Hi Hj]. unfold dx.
      pose proof (Hvs _ d0 Hi) as Ri. pose proof (Hvs _ d0 Hj) as Rj.
      unfold vsub, mrow. rewrite (nth_map2 _ _ _ _ _ 0 0) by (rewrite map_length, seq_length, ?(rp_ncX _ _ _ Ri), ?(rp_ncX _ _ _ Rj); auto).
      nred. rewrite !nth_map_seq by (rewrite ?(rp_ncX _ _ _ Ri), ?(rp_ncX _ _ _ Rj); auto).
      pose proof (rp_X _ _ _ Ri lst s Hlst Hs) as E1. pose proof (rp_X _ _ _ Rj 0%nat s ltac:(lia) Hs) as E2. nred. rewrite E1, E2. ring. }
    assert (Hpos : forall s, (s < o_nx o)%nat -> 0 < nth s (o_scale_x o) 0).
    { intros s Hs. exact (nth_pos _ s _ (sp_x _ Hsc) (sh_sx _ Hsh) Hs). }
    unfold sat. split.
    - intros H k s Hk Hs. specialize (H (k * o_nx o + s)%nat). cbn [cx c_lo c_hi] in H. fold cx in H.
      rewrite Hv in H by auto. rewrite HLXn, HUXn in H by auto. rewrite within_scale in H by auto. apply H.
      cbn [cx c_g]. nred. rewrite Hgx. nia.
    - intros H i Hi. cbn [cx c_g] in Hi. nred. rewrite Hgx in Hi.
      destruct (divide_index (o_nx o) n i Hi) as (k & s & -> & Hk & Hs).
      pose proof (Hv k s Hk Hs) as E. nred. rewrite E. cbn [cx c_lo c_hi]. rewrite HLXn, HUXn by auto. rewrite within_scale by auto. auto. }
  assert (Su : sat cu <-> forall k c, (k < n)%nat -> (c < o_nu o)%nat ->
     y_u (ys (snd (nth k (o_links o) l0))) 0 c = y_u (ys (fst (nth k (o_links o) l0))) lst c).
  { assert (Hv : forall k s, (k < n)%nat -> (s < o_nu o)%nat -> nth (k * o_nu o + s) (c_g cu) 0 =
      nth s (o_scale_u o) 0 * (y_u (ys (snd (nth k (o_links o) l0))) 0 s - y_u (ys (fst (nth k (o_links o) l0))) lst s)).
    { intros k s Hk Hs. cbn [cu c_g]. rewrite <- flat_map_concat_map.
      rewrite (nth_flat_map_const du (o_nu o) _ _ l0) by auto.
      destruct (Hin k Hk) as [Hi Hj]. unfold du.
      pose proof (Hvs _ d0 Hi) as Ri. pose proof (Hvs _ d0 Hj) as Rj.
      unfold vsub, mrow. rewrite (nth_map2 _ _ _ _ _ 0 0) by (rewrite map_length, seq_length, ?(rp_ncU _ _ _ Ri), ?(rp_ncU _ _ _ Rj); auto).
      nred. rewrite !nth_map_seq by (rewrite ?(rp_ncU _ _ _ Ri), ?(rp_ncU _ _ _ Rj); auto).
      pose proof (rp_U _ _ _ Ri lst s Hlst Hs) as E1. pose proof (rp_U _ _ _ Rj 0%nat s ltac:(lia) Hs) as E2. nred. rewrite E1, E2. ring. }
    assert (Hpos : forall s, (s < o_nu o)%nat -> 0 < nth s (o_scale_u o) 0).
    { intros s Hs. exact (nth_pos _ s _ (sp_u _ Hsc) (sh_su _ Hsh) Hs). }
    unfold sat. split.
    - intros H k s Hk Hs. specialize (H (k * o_nu o + s)%nat). cbn [cu c_lo c_hi] in H. fold cu in H.
      assert (Hr : (k * o_nu o + s < n * o_nu o)%nat) by nia.
      rewrite Hv in H by auto. unfold zu in H. rewrite nth_repeat_in in H by auto. rewrite within_00 in H.
      cbn [cu c_g] in H. nred. rewrite Hgu in H. specialize (H Hr). specialize (Hpos s Hs).
      apply Rmult_integral in H. destruct H; lra.
    - intros H i Hi. cbn [cu c_g] in Hi. nred. rewrite Hgu in Hi.
      destruct (divide_index (o_nu o) n i Hi) as (k & s & -> & Hk & Hs).
      pose proof (Hv k s Hk Hs) as E. nred. rewrite E. cbn [cu c_lo c_hi]. unfold zu. rewrite nth_repeat_in by auto.
      rewrite within_00. rewrite (H k s) by auto. ring. }
  assert (St : sat ct <-> forall k, (k < n)%nat ->
     y_t0 (ys (snd (nth k (o_links o) l0))) = y_tf (ys (fst (nth k (o_links o) l0)))).
  { assert (Hv : forall k, (k < n)%nat -> nth k (c_g ct) 0 = o_scale_t o *
      (y_t0 (ys (snd (nth k (o_links o) l0))) - y_tf (ys (fst (nth k (o_links o) l0))))).
    { intros k Hk. cbn [ct c_g]. rewrite (nth_map_in _ _ _ _ l0) by auto. destruct (Hin k Hk) as [Hi Hj]. unfold dt.
      pose proof (rp_tf _ _ _ (Hvs _ d0 Hi)) as E1. pose proof (rp_t0 _ _ _ (Hvs _ d0 Hj)) as E2. nred. rewrite E1, E2. ring. }
    pose proof (sp_t _ Hsc) as Hpos. nred.
    unfold sat. split.
    - intros H k Hk. specialize (H k). cbn [ct c_lo c_hi] in H. fold ct in H.
      rewrite Hv in H by auto. unfold zt in H. rewrite nth_repeat_in in H by auto. rewrite within_00 in H.
      cbn [ct c_g] in H. rewrite map_length in H. specialize (H Hk).
      apply Rmult_integral in H. destruct H; lra.
    - intros H i Hi. cbn [ct c_g] in Hi. rewrite map_length in Hi. fold n in Hi.
      pose proof (Hv i Hi) as E. nred. rewrite E. cbn [ct c_lo c_hi]. unfold zt. rewrite nth_repeat_in by auto.
      rewrite within_00. rewrite (H i) by auto. ring. }
  exists (con_concat [cx; cu; ct]). split; [reflexivity|].
  assert (Hb : forall c, In c [cx; cu; ct] -> balanced c).
  { intros c [<-|[<-|[<-|[]]]]; auto. }
  split; [apply balanced_concat; auto|]. split.
  { rewrite length_con_concat. cbn [map fold_right cx cu ct c_g]. rewrite map_length. nred. rewrite Hgx, Hgu. fold n. nia. }
  rewrite sat_concat by auto. split.
  - intros H k i j Hkij. assert (Hk : (k < n)%nat) by (apply nth_error_Some; congruence).
    pose proof (nth_error_nth _ _ l0 Hkij) as E. split; [|split].
    + intros s Hs. pose proof (proj1 Sx (H cx ltac:(cbn; auto)) k s Hk Hs) as G. rewrite E in G. exact G.
    + intros s Hs. pose proof (proj1 Su (H cu ltac:(cbn; auto)) k s Hk Hs) as G. rewrite E in G. exact G.
    + pose proof (proj1 St (H ct ltac:(cbn; auto)) k Hk) as G. rewrite E in G. exact G.
  - intros H.
    assert (HK : forall k, (k < n)%nat -> link_ok mp ys k (fst (nth k (o_links o) l0)) (snd (nth k (o_links o) l0))).
    { intros k Hk. apply H. rewrite <- surjective_pairing. apply nth_error_nth'. exact Hk. }
    intros c [<-|[<-|[<-|[]]]].
    + apply Sx. intros k s Hk Hs. exact (proj1 (HK k Hk) s Hs).
    + apply Su. intros k s Hk Hs. exact (proj1 (proj2 (HK k Hk)) s Hs).
    + apply St. intros k Hk. exact (proj2 (proj2 (HK k Hk))).
Qed.
End Events.

(** ** widths of a phase *)
Lemma sw_at ph : (ph < o_nph o)%nat -> forall k, (k < length orders)%nat ->
  at_ (sw_of mp p ph) k = Ok (width mp p ph k).
Proof.
  intros Hph k Hk. pose proof (mo_len _ Hmp) as Hl. nred.
  assert (Hb : (ph * mp_nseg mp + mp_nseg mp <= length p)%nat) by (rewrite Hp; nia).
  unfold sw_of, slice. rewrite (at_ok _ k 0).
  - f_equal. rewrite nth_firstn_lt by lia. rewrite nth_skipn. reflexivity.
  - rewrite firstn_length, skipn_length. nred. lia.
Qed.

(** ** the whole program *)
Lemma nlp_at_ok :
  exists rs n, mapM (c_roots cf) orders = Ok rs /\ nlp_at mp z p = Ok n /\
    length rs = length orders /\
    (forall k q r, nth_error orders k = Some q -> nth_error rs k = Some r -> good_nodes (cf_tau0 cf) (cf_tau1 cf) q r) /\
    c_g (n_x n) = z /\ balanced (n_x n) /\ balanced (n_g n) /\
    length (c_g (n_g n)) = (fold_right Nat.add 0%nat (map (phase_rows mp npath nterm) (seq 0 (o_nph o))) + link_rows o)%nat /\
    (sat (n_x n) <-> forall ph, (ph < o_nph o)%nat -> bounds_ok mp ph (user_traj mp z ph)) /\
    (sat (n_g n) <-> (forall ph, (ph < o_nph o)%nat -> phase_ok mp rs (width mp p ph) ph (user_traj mp z ph)) /\
                     links_ok mp (user_traj mp z)) /\
    (forall C B, (forall ph, (ph < o_nph o)%nat -> cost_interp mp rs (width mp p ph) ph (user_traj mp z ph) (C ph)) ->
       start_basis mp rs B ->
       n_f n = Rsum (o_nph o) (fun ph => phase_cost mp (width mp p ph) ph (user_traj mp z ph) (C ph) -
                                         start_cost mp rs (width mp p ph) ph (user_traj mp z ph) B)).
Proof.
  destruct (seg_nodes_ok cf orders (mo_cfg _ Hmp) (mo_pos _ Hmp)) as (rs & Hseg & Hlrs & Hgood).
  assert (Hne : orders <> []).
  { intros E. pose proof (mo_len _ Hmp) as Hl. pose proof (mo_nseg _ Hmp). rewrite E in Hl. cbn in Hl. lia. }
  destruct (comp_diff_ok cf orders rs 1 Hseg (or_introl eq_refl)) as (D & ED & HrD & HcD & HD).
  destruct (comp_quad_segs cf orders rs (cf_tau0 cf) (cf_tau1 cf) Hseg Hne) as (W & EW & HlW & HW).
  { exact (lo_integ _ (co_lib _ (mo_cfg _ Hmp))). }
  pose proof (proj1 Hseg) as Ers.
  assert (HD' : forall i k j ys c, owned orders i k j -> seg_interp orders k (nth k rs []) ys c ->
    is_derive (peval c) (nth j (nth k rs []) 0) (row_dot D i ys)).
  { intros i k j ys c (q & Hq & Hj & Hk & ->) Hc. unfold row_dot. rewrite HcD.
    assert (Hkl : (k < length rs)%nat) by (rewrite Hlrs; apply nth_error_Some; congruence).
    rewrite (HD k q (nth k rs []) j ys c Hq (nth_error_nth' _ _ Hkl) Hj Hk Hc). apply dform1_derive. }
  (* phases *)
  set (vs := map (unpack mp z) (seq 0 (o_nph o))).
  assert (Hvs : forall i d, (i < o_nph o)%nat -> nth i vs d = unpack mp z i).
  { intros i d Hi. unfold vs. apply nth_map_seq; auto. }
  assert (Hlvs : length vs = o_nph o) by (unfold vs; rewrite map_length, seq_length; auto).
  set (ap := Approx (N := Rnum) D W rs).
  set (P := fun ph (r : con Rnum * con Rnum * R) => let '(Z, G, J) := r in
    balanced Z /\ c_g Z = firstn (nvars mp) (skipn (ph * nvars mp) z) /\ (sat Z <-> bounds_ok mp ph (user_traj mp z ph)) /\
    balanced G /\ length (c_g G) = phase_rows mp npath nterm ph /\
    (sat G <-> phase_ok mp rs (width mp p ph) ph (user_traj mp z ph)) /\
    forall C B, cost_interp mp rs (width mp p ph) ph (user_traj mp z ph) C -> start_basis mp rs B ->
      J = phase_cost mp (width mp p ph) ph (user_traj mp z ph) C - start_cost mp rs (width mp p ph) ph (user_traj mp z ph) B).
  destruct (mapM_exists (fun ph =>
      v <- at_ vs ph ;;
      zz <- nlp_variables mp ph v ;;
      '(g, j) <- discretize_phase mp ap (sw_of mp p ph) ph v ;;
      Ok (zz, g, j)) P (seq 0 (o_nph o))) as (parts & Eparts & Hparts).
  { intros ph Hin. apply in_seq in Hin. assert (Hph : (ph < o_nph o)%nat) by lia. clear Hin.
    pose proof (unpack_rep ph Hph) as Hrep.
    rewrite (at_ok vs ph (unpack mp z ph)) by (nred; lia). cbn [bind]. rewrite Hvs by auto.
    destruct (nlp_variables_ok mp npath nterm Hok Hsc rs Hlrs ph Hph (unpack mp z ph) (user_traj mp z ph) Hrep D W HrD HcD HlW HW)
      as (Z & EZ & BZ & VZ & SZ).
    destruct (discretize_phase_ok mp Hmp npath nterm Hok Hsc rs Hseg Hlrs Hgood (sw_of mp p ph) (width mp p ph) (sw_at ph Hph)
      ph Hph (unpack mp z ph) (user_traj mp z ph) Hrep D W HrD HcD HD' HlW HW ap eq_refl eq_refl eq_refl)
      as (G & J & EG & BG & LG & SG & CG).
    rewrite EZ. cbn [bind]. rewrite EG. cbn [bind]. exists (Z, G, J). split; [reflexivity|]. unfold P.
    split; [exact BZ|]. split; [rewrite VZ; exact (phase_vars ph Hph)|]. auto 10. }
  destruct (Forall2_seq P _ _ (con_nil, con_nil, 0) Hparts) as [Hlp HP].
  (* links *)
  assert (HE : exists E, (if Nat.ltb 1 (o_nph o) then con_events mp vs else Ok con_nil) = Ok E /\ balanced E /\
    length (c_g E) = link_rows o /\ (sat E <-> links_ok mp (user_traj mp z))).
  { unfold link_rows, links_ok. destruct (Nat.ltb_spec 1 (o_nph o)) as [Hn|Hn].
    - destruct (con_events_ok vs (user_traj mp z) Hlvs) as (E & EE & BE & LE & SE).
      { intros i d Hi. rewrite Hvs by auto. apply unpack_rep; auto. }
      { exact Hn. }
      exists E. split; [exact EE|]. split; [exact BE|]. split; [exact LE|]. rewrite SE. split; auto.
    - exists con_nil. split; [reflexivity|]. split; [apply balanced_nil|]. split; [reflexivity|].
      split; [intros _ H; lia|intros _; apply sat_nil]. }
  destruct HE as (E & EE & BE & LE & SE).
  exists rs. eexists. split; [exact Ers|]. split.
  { unfold nlp_at, create_nlp. fold vs. unfold compute_numerical_approximation.
    rewrite Ers. cbn [bind]. rewrite ED. cbn [bind]. rewrite EW. cbn [bind]. fold ap. 
    rewrite Eparts. cbn [bind]. rewrite EE. cbn [bind]. reflexivity. }
  cbn [n_x n_g n_f]. split; [exact Hlrs|]. split; [exact Hgood|].

  assert (Hin : forall t, In t parts -> exists ph, (ph < o_nph o)%nat /\ P ph t).
  { intros t Ht. destruct (In_nth _ _ (con_nil, con_nil, 0) Ht) as (i & Hi & Et). exists i. assert (Hi' : (i < o_nph o)%nat) by (nred; lia). split; [exact Hi'|]. rewrite <- Et. exact (HP i Hi'). }
  assert (Hat : forall ph, (ph < o_nph o)%nat -> exists t, In t parts /\ P ph t).
  { intros ph Hph. eexists. split; [|exact (HP ph Hph)]. apply nth_In. nred. lia. }
  assert (BZ : forall c, In c (map (fun '(zz, _, _) => zz) parts) -> balanced c).
  { intros c Hc. apply in_map_iff in Hc. destruct Hc as (t & <- & Ht). destruct (Hin t Ht) as (ph & Hph & Et).
    clear HP. rename Et into HP. destruct t as [[Z G] J]. apply HP. }
  assert (BG : forall c, In c (map (fun '(_, g, _) => g) parts) -> balanced c).
  { intros c Hc. apply in_map_iff in Hc. destruct Hc as (t & <- & Ht). destruct (Hin t Ht) as (ph & Hph & Et).
    clear HP. rename Et into HP. destruct t as [[Z G] J]. apply HP. }
  split.
  { transitivity (List.concat (map (fun k => firstn (nvars mp) (skipn (k * nvars mp) z)) (seq 0 (o_nph o)))).
    2:{ apply concat_chunks. exact Hz. }
    assert (Ec : forall l : list (con Rnum), c_g (con_concat l) = List.concat (map (@c_g Rnum) l)).
    { induction l as [|c l IH]; [reflexivity|]. cbn [con_concat fold_right map List.concat]. rewrite <- IH. reflexivity. }
    rewrite Ec. f_equal. rewrite map_map. apply (list_eq_nth _ _ []).
    - rewrite !map_length, seq_length. exact Hlp.
    - rewrite map_length. intros i Hi. pose proof Hlp as Hlp'. nred. rewrite Hlp' in Hi. rewrite (nth_map_in _ _ _ _ (con_nil, con_nil, 0)) by (nred; lia).
      rewrite nth_map_seq by auto. specialize (HP i Hi). destruct (nth i parts _) as [[Z G] J]. apply HP. }
  split; [apply balanced_concat; exact BZ|].
  split; [apply balanced_app; [apply balanced_concat; exact BG|exact BE]|].
  split.
  { cbn [con_app c_g]. rewrite app_length. nred. rewrite LE. f_equal. rewrite length_con_concat. f_equal. rewrite map_map.
    apply (list_eq_nth _ _ 0%nat).
    - rewrite !map_length, seq_length. exact Hlp.
    - rewrite map_length. intros i Hi. pose proof Hlp as Hlp'. nred. rewrite Hlp' in Hi. rewrite (nth_map_in _ _ _ _ (con_nil, con_nil, 0)) by (nred; lia).
      rewrite nth_map_seq by auto. specialize (HP i Hi). destruct (nth i parts _) as [[Z G] J]. apply HP. }
  split.
  { rewrite sat_concat by exact BZ. split.
    - intros H ph Hph. destruct (Hat ph Hph) as ([[Z G] J] & Ht & HPt). pose proof (in_map (fun '(zz, _, _) => zz) _ _ Ht) as Hc.
      apply H in Hc. destruct HPt as (_ & _ & HS & _). apply HS. exact Hc.
    - intros H c Hc. apply in_map_iff in Hc. destruct Hc as (t & <- & Ht). destruct (Hin t Ht) as (ph & Hph & Et).
      clear HP. rename Et into HP. destruct t as [[Z G] J]. destruct HP as (_ & _ & HS & _). apply HS. auto. }
  split.
  { rewrite sat_app by (apply balanced_concat; exact BG). rewrite SE. rewrite sat_concat by exact BG.
    split; (intros [H HL]; split; [|exact HL]).
    - intros ph Hph. destruct (Hat ph Hph) as ([[Z G] J] & Ht & HPt). pose proof (in_map (fun '(_, g, _) => g) _ _ Ht) as Hc.
      apply H in Hc. destruct HPt as (_ & _ & _ & _ & _ & HS & _). apply HS. exact Hc.
    - intros c Hc. apply in_map_iff in Hc. destruct Hc as (t & <- & Ht). destruct (Hin t Ht) as (ph & Hph & Et).
      clear HP. rename Et into HP. destruct t as [[Z G] J]. destruct HP as (_ & _ & _ & _ & _ & HS & _). apply HS. auto. }
  intros C B HC HB. rewrite sum_R, rsum_nth, map_length. pose proof Hlp as Hlp'. nred. rewrite Hlp'. apply Rsum_ext. intros ph Hph.
  rewrite (nth_map_in _ _ _ _ (con_nil, con_nil, 0)) by (nred; lia).
  specialize (HP ph Hph). destruct (nth ph parts _) as [[Z G] J]. apply HP; auto.
Qed.
End Nlp.
