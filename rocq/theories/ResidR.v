(** Interpolation of a solution and residuals (proofs). *)
From Coq Require Import Reals.
From Coquelicot Require Import Coquelicot.
From Coq Require Import String.
From Coq Require Import List Lia Lra Bool Arith.
From Verif Require Import Num PyList Mat Poly Roots Colloc Ocp Transcribe Hadapt Resid Spec SpecOcp SpecHadapt SpecResid
  NumR ListR PolyR CollocR CompR CollocThm MeshR BlockR DiscR NlpR NlpThm NlpMain AreaR GridR.
Import ListNotations.
Open Scope R_scope.

Lemma nth_concat_off {A} (ls : list (list A)) : forall k i d, (k < length ls)%nat -> (i < length (nth k ls []))%nat ->
  nth (offset (map (@length A) ls) k + i) (concat ls) d = nth i (nth k ls []) d.
Proof.
  induction ls as [|l ls IH]; intros k i d Hk Hi; [cbn in Hk; lia|]. destruct k as [|k].
  - cbn [map offset concat nth] in *. rewrite Nat.add_0_l, app_nth1 by exact Hi. reflexivity.
  - cbn [map offset concat nth] in *. rewrite app_nth2 by lia.
    replace (length l + offset (map (length (A:=A)) ls) k + i - length l)%nat with (offset (map (length (A:=A)) ls) k + i)%nat by lia.
    apply IH; [cbn in Hk; lia|exact Hi].
Qed.
Lemma slice_concat {A} (ls : list (list A)) : forall k, (k < length ls)%nat ->
  let s := offset (map (@length A) ls) k in
  slice s (s + length (nth k ls [])) (concat ls) = nth k ls [].
Proof.
  induction ls as [|l ls IH]; intros k Hk; [cbn in Hk; lia|]. unfold slice in *. cbv zeta in *.
  destruct k as [|k]; cbn [map offset concat nth].
  - rewrite Nat.add_0_l, Nat.sub_0_r. cbn [skipn]. rewrite firstn_app, Nat.sub_diag, firstn_all, firstn_O. apply app_nil_r.
  - rewrite skipn_app, skipn_all2 by lia. cbn [app].
    replace (length l + offset (map (length (A:=A)) ls) k - length l)%nat with (offset (map (length (A:=A)) ls) k) by lia.
    rewrite <- (IH k ltac:(cbn in Hk; lia)) at 2. f_equal. lia.
Qed.
Lemma concat_length {A} (ls : list (list A)) : length (concat ls) = offset (map (@length A) ls) (length ls).
Proof. induction ls as [|l ls IH]; [reflexivity|]. cbn. rewrite app_length, IH. reflexivity. Qed.
Lemma vquot_vec n (sc row : list R) (f : nat -> R) : length sc = n -> length row = n -> (forall s, In s sc -> 0 < s) ->
  (forall s, (s < n)%nat -> nth s row 0 = nth s sc 0 * f s) -> vquot (N := Rnum) row sc = vec n f.
Proof.
  intros H1 H2 Hp H. apply (list_eq_nth _ _ 0).
  - unfold vquot. pose proof (length_map2 (@ndiv Rnum) row sc) as L. nred. rewrite L, length_vec. lia.
  - intros i Hi. unfold vquot in *. pose proof (length_map2 (@ndiv Rnum) row sc) as L. nred. rewrite L in Hi.
    rewrite (nth_map2 _ _ _ _ 0 0 0) by lia. rewrite nth_vec by lia. rewrite H by lia.
    assert (0 < nth i sc 0) by (apply Hp, nth_In; lia). field. lra.
Qed.

Lemma mapM_total {A B} (f : A -> res B) l : (forall a, In a l -> exists b, f a = Ok b) ->
  exists bs, mapM f l = Ok bs /\ length bs = length l /\ forall k a, nth_error l k = Some a -> exists b, f a = Ok b /\ nth_error bs k = Some b.
Proof.
  intros H. assert (E : exists bs, mapM f l = Ok bs).
  { induction l as [|a l IH]; [eexists; reflexivity|]. cbn. destruct (H a (or_introl eq_refl)) as (b & ->).
    destruct IH as (bs & ->); [intros; apply H; right; auto|]. eexists; reflexivity. }
  destruct E as (bs & E). exists bs. split; [exact E|]. destruct (mapM_inv _ _ _ E) as [Hl Hn]. split; [exact Hl|].
  intros k a Hk. destruct (Hn k a Hk) as (b & H1 & H2). eauto.
Qed.
Lemma finite_choice n (P : nat -> list R -> Prop) : (forall s, (s < n)%nat -> exists c, P s c) ->
  exists f, forall s, (s < n)%nat -> P s (f s).
Proof.
  induction n as [|n IH]; intros H; [exists (fun _ => []); intros s Hs; lia|].
  destruct IH as (f & Hf); [auto|]. destruct (H n ltac:(lia)) as (c & Hc).
  exists (fun s => if Nat.eqb s n then c else f s). intros s Hs. destruct (Nat.eqb_spec s n) as [->|Hn]; [exact Hc|apply Hf; lia].
Qed.

Section Resid.
Variables (rc : rcfg) (mp : mpo Rnum) (npath nterm : nat -> option nat) (z p : list R).
Hypothesis Hin : input_ok mp npath nterm z p.
Local Notation o := (mp_ocp mp).
Local Notation cf := (mp_cf mp).
Local Notation orders := (mp_orders mp).
Let Hmp : mpo_ok mp := in_mpo _ _ _ _ _ Hin.
Let Hok : ocp_ok o npath nterm := in_ocp _ _ _ _ _ Hin.
Let Hsc : scales_pos o := in_sc _ _ _ _ _ Hin.
Let Hsh := ok_shapes _ _ _ Hok.
Variables (ph : nat).
Hypothesis Hph : (ph < o_nph o)%nat.
Local Notation w := (width mp p ph).
Local Notation y := (user_traj mp z ph).

Lemma widths_of_at_gen p' k : length p' = length p -> (k < length orders)%nat -> at_ (widths_of mp p' ph) k = Ok (width mp p' ph k).
Proof.
  intros Hp' Hk. pose proof (mo_len _ Hmp) as Hl. pose proof (in_p _ _ _ _ _ Hin) as Hp.
  assert (Hb : (ph * mp_nseg mp + mp_nseg mp <= length p')%nat) by (rewrite Hp', Hp; nia).
  unfold widths_of, slice. rewrite (at_ok _ k 0).
  - f_equal. unfold width. rewrite nth_firstn_lt by nia. rewrite nth_skipn. f_equal. nred. lia.
  - rewrite firstn_length, skipn_length. nred. nia.
Qed.
Lemma widths_of_at k : (k < length orders)%nat -> at_ (widths_of mp p ph) k = Ok (w k).
Proof. apply widths_of_at_gen. reflexivity. Qed.
Lemma widths_of_len : length (widths_of mp p ph) = length orders.
Proof.
  pose proof (mo_len _ Hmp) as Hl. pose proof (in_p _ _ _ _ _ Hin) as Hp.
  assert (Hb : (ph * mp_nseg mp + mp_nseg mp <= length p)%nat) by (rewrite Hp; nia).
  unfold widths_of, slice. rewrite firstn_length, skipn_length. nred. nia.
Qed.

(** times of the ends of segments *)
Lemma edge_time rs tr : length rs = length orders ->
  (forall k q r, nth_error orders k = Some q -> nth_error rs k = Some r -> good_nodes (cf_tau0 cf) (cf_tau1 cf) q r) ->
  (forall i k j, owned orders i k j -> nth i (tr_t tr) 0 = node_time cf w y k (nth j (nth k rs []) 0)) ->
  forall k, (k <= length orders)%nat -> nth (offset orders k) (tr_t tr) 0 = seg_start w y k.
Proof.
  intros Hl Hg Ht k Hk. pose proof (co_taus _ (mo_cfg _ Hmp)) as Htau. destruct k as [|k].
  - rewrite offset_0. assert (Hne : (0 < length orders)%nat) by (pose proof (mo_len _ Hmp); pose proof (mo_nseg _ Hmp); lia).
    destruct (nth_error orders 0) as [q|] eqn:Eq; [|apply nth_error_None in Eq; lia].
    rewrite (Ht 0%nat 0%nat 0%nat).
    + destruct (Hg 0%nat q (nth 0 rs []) Eq) as (_ & _ & E0 & _); [apply nth_error_nth'; lia|]. rewrite E0.
      rewrite node_time_seg by exact Htau. unfold seg_time, seg_start, seg_h. cbn [Rsum]. nred. field. lra.
    + exists q. repeat split; auto; try lia. now rewrite offset_0.
  - destruct (nth_error orders k) as [q|] eqn:Eq; [|apply nth_error_None in Eq; lia].
    assert (Hq : (1 <= q)%nat) by (apply (mo_pos _ Hmp); eapply nth_error_In; eauto).
    rewrite (Ht _ k q).
    + destruct (Hg k q (nth k rs []) Eq) as (_ & _ & _ & E1); [apply nth_error_nth'; lia|]. rewrite E1.
      rewrite node_time_seg by exact Htau. unfold seg_time, seg_start, seg_h. cbn [Rsum]. nred. field. lra.
    + exists q. repeat split; auto; try lia. now apply offset_S.
Qed.

Section Nodes.
Variable taus : list (list R).
Hypothesis Htl : length taus = length orders.
Local Notation off := (offset (map (@length R) taus)).

(** what interpolate_single_phase returns *)
Record interp_ok (rs : list (list R)) (it : interp (N := Rnum)) : Prop := {
  io_taus : i_taus it = taus;
  io_t0 : i_t0 it = y_t0 y;
  io_tf : i_tf it = y_tf y;
  io_a : vquot (i_a it) (o_scale_a o) = vec (o_na o) (y_a y);
  io_ncx : nc (i_x it) = o_nx o;
  io_ncu : nc (i_u it) = o_nu o;
  io_ncdx : nc (i_dx it) = o_nx o;
  io_ncdu : nc (i_du it) = o_nu o;
  io_nrx : nr (i_x it) = off (length taus);
  io_nru : nr (i_u it) = off (length taus);
  io_nrdx : nr (i_dx it) = off (length taus);
  io_nrdu : nr (i_du it) = off (length taus);
  io_t : i_t it = concat (map (fun k => map (seg_time cf w y k) (nth k taus [])) (seq 0 (length orders)));
  io_x : forall k i s c, (k < length orders)%nat -> (i < length (nth k taus []))%nat -> (s < o_nx o)%nat ->
    seg_interp orders k (nth k rs []) (fun i => y_x y i s) c ->
    mget (i_x it) (off k + i) s = nth s (o_scale_x o) 0 * peval c (nth i (nth k taus []) 0);
  io_u : forall k i s c, (k < length orders)%nat -> (i < length (nth k taus []))%nat -> (s < o_nu o)%nat ->
    seg_interp orders k (nth k rs []) (fun i => y_u y i s) c ->
    mget (i_u it) (off k + i) s = nth s (o_scale_u o) 0 * peval c (nth i (nth k taus []) 0);
  io_dx : forall k i s c, (k < length orders)%nat -> (i < length (nth k taus []))%nat -> (s < o_nx o)%nat ->
    seg_interp orders k (nth k rs []) (fun i => y_x y i s) c ->
    mget (i_dx it) (off k + i) s = nth s (o_scale_x o) 0 * Derive (peval c) (nth i (nth k taus []) 0);
  io_du : forall k i s c, (k < length orders)%nat -> (i < length (nth k taus []))%nat -> (s < o_nu o)%nat ->
    seg_interp orders k (nth k rs []) (fun i => y_u y i s) c ->
    mget (i_du it) (off k + i) s = nth s (o_scale_u o) 0 * Derive (peval c) (nth i (nth k taus []) 0)
}.

Lemma mmul_scaled (M X : mat Rnum) n sc i s (ys : nat -> R) v : nc M = n -> 
  (forall j, (j < n)%nat -> mget X j s = sc * ys j) ->
  Rsum n (fun j => mget M i j * ys j) = v -> mget (mmul M X) i s = sc * v.
Proof.
  intros Hn HX Hv. cbn [mmul mget]. rewrite sumf_R. nred. rewrite Hn, <- Hv, <- Rsum_scal. apply Rsum_ext. intros j Hj.
  rewrite HX by exact Hj. ring.
Qed.

Lemma interp_spec : exists rs it, mapM (c_roots cf) orders = Ok rs /\ length rs = length orders /\
  (forall k q r, nth_error orders k = Some q -> nth_error rs k = Some r -> good_nodes (cf_tau0 cf) (cf_tau1 cf) q r) /\
  interpolate_phase rc mp p z ph (Some taus) = Ok it /\ interp_ok rs it.
Proof.
  destruct (setup mp npath nterm z p Hin) as (rs & ap & Ers & _ & Hseg & Hlrs & Hgood & _).
  destruct (trajectories_ok mp npath nterm z p ph Hin Hph) as (rs' & tr & Ers' & Etr & EX & EU & EA & E0 & Ef & Hl & Ht).
  rewrite Ers in Ers'. inversion Ers'; subst rs'; clear Ers'.
  destruct (comp_interp_ok cf taus orders rs Hseg Htl) as (I & EI & Ir & Ic & HI).
  destruct (comp_interpD_ok cf taus orders rs 1 Hseg Htl) as (D & ED & Dr & Dc & HD); [auto|].
  pose proof (co_taus _ (mo_cfg _ Hmp)) as Htau.
  assert (Hrep : rep mp (unpack mp z ph) y) by (pose proof (in_z _ _ _ _ _ Hin); pose proof (in_p _ _ _ _ _ Hin); eapply unpack_rep; eauto).
  exists rs. eexists. split; [exact Ers|]. split; [exact Hlrs|]. split; [exact Hgood|]. split.
  { unfold interpolate_phase_by. nred. rewrite Etr. cbn [bind].
    rewrite (time_grid_thm _ taus orders) by (auto; lra). cbn [bind]. rewrite EI. cbn [bind]. rewrite ED. cbn [bind]. reflexivity. }
  split; cbn [i_taus i_t0 i_tf i_a i_x i_u i_dx i_du i_t mmul nc nr]; auto; rewrite ?EX, ?EU, ?EA.
  - apply vquot_vec; [apply (sh_sa _ Hsh)|apply (rp_lenA _ _ _ Hrep)|apply (sp_a _ Hsc)|apply (rp_A _ _ _ Hrep)].
  - apply (rp_ncX _ _ _ Hrep).
  - apply (rp_ncU _ _ _ Hrep).
  - apply (rp_ncX _ _ _ Hrep).
  - apply (rp_ncU _ _ _ Hrep).
  - f_equal. apply map_ext_in. intros k Hk. apply in_seq in Hk. apply map_ext. intros x. unfold time_at.
    rewrite !(edge_time rs tr Hlrs Hgood Ht) by lia. unfold seg_time, seg_start, seg_h, frac. cbn [Rsum]. nred. field. lra.
  - intros k i s c Hk Hi Hs Hc. apply (mmul_scaled I _ (total_nodes orders) _ _ _ (fun i => y_x y i s)); auto.
    + intros j Hj. apply (rp_X _ _ _ Hrep); auto.
    + destruct (nth_error orders k) as [q|] eqn:Eq; [|apply nth_error_None in Eq; lia].
      apply (HI k q (nth k rs []) (nth k taus []) i); auto; apply nth_error_nth'; lia.
  - intros k i s c Hk Hi Hs Hc. apply (mmul_scaled I _ (total_nodes orders) _ _ _ (fun i => y_u y i s)); auto.
    + intros j Hj. apply (rp_U _ _ _ Hrep); auto.
    + destruct (nth_error orders k) as [q|] eqn:Eq; [|apply nth_error_None in Eq; lia].
      apply (HI k q (nth k rs []) (nth k taus []) i); auto; apply nth_error_nth'; lia.
  - intros k i s c Hk Hi Hs Hc. apply (mmul_scaled D _ (total_nodes orders) _ _ _ (fun i => y_x y i s)); auto.
    + intros j Hj. apply (rp_X _ _ _ Hrep); auto.
    + destruct (nth_error orders k) as [q|] eqn:Eq; [|apply nth_error_None in Eq; lia].
      rewrite (HD k q (nth k rs []) (nth k taus []) i _ c); auto; try (apply nth_error_nth'; lia).
      symmetry. apply is_derive_unique, dform1_derive.
  - intros k i s c Hk Hi Hs Hc. apply (mmul_scaled D _ (total_nodes orders) _ _ _ (fun i => y_u y i s)); auto.
    + intros j Hj. apply (rp_U _ _ _ Hrep); auto.
    + destruct (nth_error orders k) as [q|] eqn:Eq; [|apply nth_error_None in Eq; lia].
      rewrite (HD k q (nth k rs []) (nth k taus []) i _ c); auto; try (apply nth_error_nth'; lia).
      symmetry. apply is_derive_unique, dform1_derive.
Qed.
Lemma polys_exist rs : length rs = length orders ->
  (forall k q r, nth_error orders k = Some q -> nth_error rs k = Some r -> good_nodes (cf_tau0 cf) (cf_tau1 cf) q r) ->
  forall k, (k < length orders)%nat -> exists cx cu, seg_polys mp rs y k cx cu.
Proof using.
  clear Hph Htl.
  intros Hl Hg k Hk. destruct (nth_error orders k) as [q|] eqn:Eq; [|apply nth_error_None in Eq; lia].
  assert (Hr : nth_error rs k = Some (nth k rs [])) by (apply nth_error_nth'; lia).
  pose proof (good_nodup _ _ _ _ (Hg k q _ Eq Hr)) as Hnd.
  destruct (finite_choice (o_nx o) (fun s c => seg_interp orders k (nth k rs []) (fun i => y_x y i s) c)) as (cx & Hx).
  { intros s _. apply interp_exists. exact Hnd. }
  destruct (finite_choice (o_nu o) (fun s c => seg_interp orders k (nth k rs []) (fun i => y_u y i s) c)) as (cu & Hu).
  { intros s _. apply interp_exists. exact Hnd. }
  exists cx, cu. split; assumption.
Qed.

Section It.
Variables (rs : list (list R)) (it : interp (N := Rnum)).
Hypothesis Hit : interp_ok rs it.
Variables (k : nat) (cx cu : nat -> list R).
Hypothesis Hk : (k < length orders)%nat.
Hypothesis Hc : seg_polys mp rs y k cx cu.
Local Notation tk := (nth k taus []).
Local Notation along tau := (dyn_along o ph y cx cu tau (seg_time cf w y k tau)).

Lemma at_t i : (i < length tk)%nat -> at_ (i_t it) (off k + i) = Ok (seg_time cf w y k (nth i tk 0)).
Proof.
  intros Hi. rewrite (io_t _ _ Hit).
  set (ls := map (fun k => map (seg_time cf w y k) (nth k taus [])) (seq 0 (length orders))).
  assert (El : map (@length R) ls = map (@length R) taus).
  { apply (list_eq_nth _ _ 0%nat); [unfold ls; rewrite !map_length, seq_length; lia|].
    intros j Hj. rewrite map_length in Hj. rewrite (nth_map_in _ _ _ _ []) by lia.
    unfold ls in *. rewrite map_length, seq_length in Hj. rewrite nth_map_seq by lia.
    rewrite (nth_map_in _ _ _ _ []) by lia. now rewrite map_length. }
  rewrite <- El. assert (Hn : nth k ls [] = map (seg_time cf w y k) tk) by (unfold ls; rewrite nth_map_seq by lia; reflexivity).
  assert (Hls : (k < length ls)%nat) by (unfold ls; rewrite map_length, seq_length; lia).
  assert (Hi' : (i < length (nth k ls []))%nat) by (rewrite Hn, map_length; lia).
  pose proof (nth_concat_off ls k i 0 Hls Hi') as E. rewrite (at_ok _ _ 0).
  - rewrite E, Hn. rewrite (nth_map_in _ _ _ _ 0) by lia. reflexivity.
  - rewrite concat_length. pose proof (offset_mono (map (@length R) ls) (S k) (length ls) ltac:(lia)) as M.
    rewrite (offset_S_nth _ k) in M by (rewrite map_length; lia). rewrite (nth_map_in _ _ _ _ []) in M by lia. lia.
Qed.
Lemma slice_t : slice (off k) (off k + length tk) (i_t it) = map (seg_time cf w y k) tk.
Proof.
  rewrite (io_t _ _ Hit).
  set (ls := map (fun k => map (seg_time cf w y k) (nth k taus [])) (seq 0 (length orders))).
  assert (El : map (@length R) ls = map (@length R) taus).
  { apply (list_eq_nth _ _ 0%nat); [unfold ls; rewrite !map_length, seq_length; lia|].
    intros j Hj. rewrite map_length in Hj. rewrite (nth_map_in _ _ _ _ []) by lia.
    unfold ls in *. rewrite map_length, seq_length in Hj. rewrite nth_map_seq by lia.
    rewrite (nth_map_in _ _ _ _ []) by lia. now rewrite map_length. }
  rewrite <- El. assert (Hn : nth k ls [] = map (seg_time cf w y k) tk) by (unfold ls; rewrite nth_map_seq by lia; reflexivity).
  assert (Hls : (k < length ls)%nat) by (unfold ls; rewrite map_length, seq_length; lia).
  pose proof (slice_concat ls k Hls) as E. cbv zeta in E. rewrite Hn, map_length in E. exact E.
Qed.
Lemma x_row i : (i < length tk)%nat -> vquot (mrow (i_x it) (off k + i)) (o_scale_x o) = vec (o_nx o) (fun s => peval (cx s) (nth i tk 0)).
Proof.
  intros Hi. apply vquot_vec; [apply (sh_sx _ Hsh)|unfold mrow; rewrite map_length, seq_length; apply (io_ncx _ _ Hit)|apply (sp_x _ Hsc)|].
  intros s Hs. unfold mrow. rewrite (io_ncx _ _ Hit). etransitivity; [apply (nth_map_seq (mget (i_x it) (off k + i))); auto|].
  apply (io_x _ _ Hit); auto. apply Hc; auto.
Qed.
Lemma u_row i : (i < length tk)%nat -> vquot (mrow (i_u it) (off k + i)) (o_scale_u o) = vec (o_nu o) (fun s => peval (cu s) (nth i tk 0)).
Proof.
  intros Hi. apply vquot_vec; [apply (sh_su _ Hsh)|unfold mrow; rewrite map_length, seq_length; apply (io_ncu _ _ Hit)|apply (sp_u _ Hsc)|].
  intros s Hs. unfold mrow. rewrite (io_ncu _ _ Hit). etransitivity; [apply (nth_map_seq (mget (i_u it) (off k + i))); auto|].
  apply (io_u _ _ Hit); auto. apply Hc; auto.
Qed.
Lemma along_len tau t : length (dyn_along o ph y cx cu tau t) = o_nx o /\
  exists f, nth_error (o_dyn o) ph = Some f /\
    f (vec (o_nx o) (fun s => peval (cx s) tau)) (vec (o_nu o) (fun q => peval (cu q) tau)) t (a_of o y) = Ok (dyn_along o ph y cx cu tau t).
Proof.
  unfold dyn_along. destruct (nth_error (o_dyn o) ph) as [f|] eqn:En.
  2:{ apply nth_error_None in En. rewrite (sh_dyn _ Hsh) in En. lia. }
  assert (Ha : arg_ok o (a_of o y)).
  { unfold arg_ok, a_of. destruct (Nat.eqb (o_na o) 0); [reflexivity|]. eexists; split; [reflexivity|apply length_vec]. }
  destruct (ok_dyn _ _ _ Hok ph f (vec (o_nx o) (fun s => peval (cx s) tau)) (vec (o_nu o) (fun q => peval (cu q) tau)) t (a_of o y) En
    (length_vec _ _) (length_vec _ _) Ha) as (d & Ed & Hl).
  rewrite Ed. split; [exact Hl|]. exists f. split; [reflexivity|exact Ed].
Qed.
Lemma seg_dynamics_ok : seg_dynamics mp ph it (off k) (length tk) = Ok (map (fun i => along (nth i tk 0)) (seq 0 (length tk))).
Proof.
  unfold seg_dynamics. apply mapM_ok. intros i Hi. apply in_seq in Hi. rewrite at_t by lia. cbn [bind].
  rewrite x_row, u_row by lia. rewrite (io_a _ _ Hit). unfold get_dynamics, at_, a_arg.
  destruct (along_len (nth i tk 0) (seg_time cf w y k (nth i tk 0))) as [Hl (f & Ef & E)].
  nred. rewrite Ef. cbn [bind]. unfold a_of in E. nred. rewrite E. cbn [bind]. nred. rewrite Hl, Nat.eqb_refl. reflexivity.
Qed.
Lemma seg_factor_ok : seg_factor mp p ph it k = Ok (seg_h cf w y k).
Proof.
  unfold seg_factor. rewrite widths_of_at by exact Hk. cbn [bind]. rewrite (io_t0 _ _ Hit), (io_tf _ _ Hit). f_equal.
  pose proof (co_taus _ (mo_cfg _ Hmp)) as Htau. unfold seg_h. nred. field. lra.
Qed.

(** ** residuals of the dynamics *)
Local Notation res_rows := (state_rows mp (defect mp w ph y k cx cu) tk).
Local Notation dyn_rows := (state_rows mp (rate mp w ph y k cx cu) tk).
Lemma start_off : nsum (firstn k (map (@length R) (i_taus it))) = off k.
Proof. rewrite (io_taus _ _ Hit). apply nsum_firstn. Qed.
Lemma map_tk {A} (f : R -> A) : map (fun i => f (nth i tk 0)) (seq 0 (length tk)) = map f tk.
Proof.
  rewrite <- (map_map (fun i => nth i tk 0) f). f_equal. apply (list_eq_nth _ _ 0).
  - now rewrite map_length, seq_length.
  - intros i Hi. rewrite map_length, seq_length in Hi. rewrite nth_map_seq by exact Hi. reflexivity.
Qed.
Section Factor.
(** widths [p'] in the factor of the dynamics, those of [p] in the times *)
Variable p' : list R.
Hypothesis Hp' : length p' = length p.
Local Notation h' := ((y_tf y - y_t0 y) * width mp p' ph k / (cf_tau1 cf - cf_tau0 cf)).
Local Notation rate' := (fun s tau => h' * nth s (along tau) 0).
Lemma factor_gen : seg_factor mp p' ph it k = Ok h'.
Proof.
  unfold seg_factor. rewrite (widths_of_at_gen p' k Hp' Hk). cbn [bind]. rewrite (io_t0 _ _ Hit), (io_tf _ _ Hit). f_equal.
  pose proof (co_taus _ (mo_cfg _ Hmp)) as Htau. nred. field. lra.
Qed.
Lemma scaled_rows : map (fun f => map (Rmult h') (map2 Rmult f (o_scale_x o))) (map (fun tau => along tau) tk) = state_rows mp rate' tk.
Proof.
  unfold state_rows. rewrite map_map. apply map_ext. intros tau. destruct (along_len tau (seg_time cf w y k tau)) as [Hl _].
  pose proof (sh_sx _ Hsh) as Hs. nred.
  assert (Hm : length (map2 Rmult (along tau) (o_scale_x o)) = o_nx o) by (rewrite length_map2; nred; lia).
  apply (list_eq_nth _ _ 0); [now rewrite map_length, length_vec|].
  intros i Hi. rewrite map_length in Hi. rewrite (nth_map_in _ _ _ _ 0) by exact Hi. rewrite nth_vec by lia.
  rewrite (nth_map2 _ _ _ _ 0 0 0) by (nred; lia). ring.
Qed.
Lemma dyn_residual_seg_gen : dyn_residual_seg mp p' ph it k =
  Ok (if Nat.eqb (length tk) 0 then Segres [] None None
      else Segres (N := Rnum) (map (seg_time cf w y k) tk)
        (Some (state_rows mp (fun s tau => Derive (peval (cx s)) tau - rate' s tau) tk)) (Some (state_rows mp rate' tk))).
Proof.
  unfold dyn_residual_seg. rewrite (io_taus _ _ Hit). rewrite (at_ok _ k []) by (nred; lia). cbn [bind].
  pose proof start_off as S0. rewrite (io_taus _ _ Hit) in S0. nred. rewrite S0.
  rewrite seg_dynamics_ok. cbn [bind]. destruct (Nat.eqb (length tk) 0) eqn:E0; [reflexivity|].
  rewrite factor_gen. cbn [bind]. f_equal. pose proof slice_t as ST. nred. rewrite ST.
  rewrite (map_tk (fun tau => along tau)). pose proof scaled_rows as SR. nred. rewrite SR.
  f_equal. f_equal. unfold state_rows at 2. apply (list_eq_nth _ _ []).
  - unfold state_rows. rewrite map_length. unfold enumerate. rewrite combine_length, seq_length, !map_length. lia.
  - intros i Hi. rewrite map_length in Hi. unfold enumerate in Hi. rewrite combine_length, seq_length in Hi.
    assert (Hi' : (i < length tk)%nat) by (unfold state_rows in Hi; rewrite map_length in Hi; lia).
    rewrite (nth_map_in _ _ _ _ 0) by exact Hi'.
    rewrite (nth_map_in _ _ _ _ (0%nat, [])) by (unfold enumerate; rewrite combine_length, seq_length; lia).
    unfold enumerate. rewrite combine_nth by (now rewrite seq_length).
    rewrite seq_nth by lia. unfold state_rows. rewrite (nth_map_in _ _ _ _ 0) by exact Hi'. cbn [Nat.add].
    assert (Lr : length (mrow (i_dx it) (off k + i)) = o_nx o) by (unfold mrow; rewrite map_length, seq_length; apply (io_ncdx _ _ Hit)).
    apply (list_eq_nth _ _ 0).
    + unfold vsub. rewrite length_map2, !length_vec. nred. lia.
    + intros s Hs. unfold vsub in *. rewrite length_map2, length_vec in Hs. nred. rewrite Lr in Hs.
      rewrite (nth_map2 _ _ _ _ 0 0 0) by (rewrite ?length_vec; lia). rewrite !nth_vec by lia.
      assert (Er : nth s (mrow (i_dx it) (off k + i)) 0 = nth s (o_scale_x o) 0 * Derive (peval (cx s)) (nth i tk 0)).
      { unfold mrow. rewrite (io_ncdx _ _ Hit). etransitivity; [apply (nth_map_seq (mget (i_dx it) (off k + i))); lia|].
        apply (io_dx _ _ Hit); auto; [lia|]. apply Hc; lia. }
      nred. etransitivity; [apply (f_equal2 Rminus Er eq_refl)|]. ring.
Qed.
End Factor.
Lemma dyn_residual_seg_ok : dyn_residual_seg mp p ph it k =
  Ok (if Nat.eqb (length tk) 0 then Segres [] None None
      else Segres (N := Rnum) (map (seg_time cf w y k) tk) (Some res_rows) (Some dyn_rows)).
Proof. exact (dyn_residual_seg_gen p eq_refl). Qed.

(** ** states by integration of the dynamics *)
Variable cq : nat -> list R.
Hypothesis Hnd : NoDup tk.
Hypothesis Hcq : dyn_interp mp w ph y k cx cu cq tk.
Local Notation int_state := (integrated mp w y k cq).
Local Notation int_rows := (state_rows mp int_state tk).
Local Notation int_res := (state_rows mp (fun s tau => peval (cx s) tau - int_state s tau) tk).
Local Notation u_rows := (control_rows mp (fun q tau => peval (cu q) tau) tk).

Lemma nth_enumerate_map {A B} (f : nat -> A -> B) (l : list A) i (da : A) (db : B) : (i < length l)%nat ->
  nth i (map (fun '(j, a) => f j a) (enumerate l)) db = f i (nth i l da).
Proof.
  intros Hi. assert (Le : length (enumerate l) = length l) by (unfold enumerate; rewrite combine_length, seq_length; lia).
  rewrite (nth_map_in _ _ _ _ (0%nat, da)) by lia. unfold enumerate. rewrite combine_nth by (now rewrite seq_length). rewrite seq_nth by lia. reflexivity.
Qed.
Lemma length_enumerate_map {A B} (f : nat * A -> B) (l : list A) : length (map f (enumerate l)) = length l.
Proof. rewrite map_length. unfold enumerate. rewrite combine_length, seq_length. lia. Qed.

Lemma weighted_sum (wt : list R) s : length wt = length tk -> (s < o_nx o)%nat ->
  sum_ (N := Rnum) (map2 (fun wk f => wk * nth s f 0) wt (map (fun f => map2 Rmult f (o_scale_x o)) (map (fun tau => along tau) tk)))
  = nth s (o_scale_x o) 0 * Rsum (length tk) (fun j => nth j wt 0 * nth s (along (nth j tk 0)) 0).
Proof.
  intros Hl Hs. rewrite sum_R, rsum_nth. rewrite length_map2, !map_length. nred. rewrite Hl, Nat.min_id. rewrite <- Rsum_scal.
  apply Rsum_ext. intros j Hj. rewrite (nth_map2 _ _ _ _ 0 0 []) by (rewrite ?map_length; lia).
  rewrite (nth_map_in _ _ _ _ []) by (rewrite map_length; lia). rewrite (nth_map_in _ _ _ _ 0) by lia.
  destruct (along_len (nth j tk 0) (seg_time cf w y k (nth j tk 0))) as [Hla _]. pose proof (sh_sx _ Hsh) as Hsx.
  rewrite (nth_map2 _ _ _ _ 0 0 0) by (nred; lia). ring.
Qed.
Lemma integrate_seg_ok (x : mat Rnum) : nc x = o_nx o ->
  (forall s, (s < o_nx o)%nat -> mget x (offset orders k) s = nth s (o_scale_x o) 0 * y_x y (offset orders k) s) ->
  integrate_seg mp p ph it x k = Ok (if Nat.eqb (length tk) 0 then None
    else Some (Segstate (N := Rnum) int_rows u_rows (map (seg_time cf w y k) tk) int_res)).
Proof.
  intros Hncx Hx. unfold integrate_seg. rewrite (io_taus _ _ Hit). rewrite (at_ok _ k []) by (nred; lia). cbn [bind].
  pose proof start_off as S0. rewrite (io_taus _ _ Hit) in S0. nred. rewrite S0.
  rewrite seg_factor_ok. cbn [bind]. rewrite seg_dynamics_ok. cbn [bind].
  rewrite (map_tk (fun tau => along tau)).
  pose proof (lo_integ _ (co_lib _ (mo_cfg _ Hmp))) as Hig.
  pose proof (sh_sx _ Hsh) as Hsx.
  rewrite (@mapM_ok R (list R) _ (fun tau => vec (o_nx o) (fun s => nth s (o_scale_x o) 0 * int_state s tau))).
  2:{ intros tau Ht. destruct (weights_exact_thm cf tk (cf_tau0 cf) tau Hnd Hig) as (wt & Ew & Lw & Hw). nred. rewrite Ew. cbn [bind].
      f_equal. rewrite nsum_firstn. assert (Lr : length (mrow x (offset orders k)) = o_nx o) by (unfold mrow; rewrite map_length, seq_length; exact Hncx).
      apply (list_eq_nth _ _ 0); [rewrite length_enumerate_map, length_vec; exact Lr|].
      intros s Hs. rewrite length_enumerate_map in Hs. nred. rewrite Lr in Hs.
      etransitivity; [apply (nth_enumerate_map (fun s v => v + seg_h cf w y k *
         sum_ (N := Rnum) (map2 (fun wk f => wk * nth s f 0) wt (map (fun f => map2 Rmult f (o_scale_x o)) (map (fun tau => along tau) tk))))
         (mrow x (offset orders k)) s 0 0); nred; lia|]. cbv beta.
      rewrite nth_vec by exact Hs. rewrite weighted_sum by auto.
      assert (Ex : nth s (mrow x (offset orders k)) 0 = nth s (o_scale_x o) 0 * y_x y (offset orders k) s).
      { unfold mrow. rewrite Hncx. etransitivity; [apply (nth_map_seq (mget x (offset orders k))); exact Hs|]. apply Hx, Hs. }
      nred. etransitivity; [apply (f_equal2 Rplus Ex eq_refl)|]. unfold integrated. destruct (Hcq s Hs) as [Hlq Hq]. rewrite <- (Hw (cq s) Hlq).
      rewrite (Rsum_ext _ (fun j => nth j wt 0 * peval (cq s) (nth j tk 0)) (fun j => nth j wt 0 * nth s (along (nth j tk 0)) 0)).
      2:{ intros j Hj. f_equal. apply Hq, Hj. }
      ring. }
  cbn [bind]. change (map (fun tau => vec (o_nx o) (fun s => nth s (o_scale_x o) 0 * int_state s tau)) tk) with int_rows.
  destruct (Nat.eqb (length tk) 0) eqn:E0; [reflexivity|]. f_equal. f_equal.
  pose proof slice_t as ST. nred. rewrite ST. f_equal.
  - unfold control_rows. rewrite <- (map_tk (fun tau => vec (o_nu o) (fun s => nth s (o_scale_u o) 0 * peval (cu s) tau))).
    apply map_ext_in. intros i Hi. apply in_seq in Hi. unfold mrow. rewrite (io_ncu _ _ Hit). unfold vec. apply map_ext_in. intros s Hs. apply in_seq in Hs.
    apply (io_u _ _ Hit); auto; [lia|lia|]. apply Hc; lia.
  - unfold state_rows at 2. apply (list_eq_nth _ _ []); [rewrite length_enumerate_map; unfold state_rows; now rewrite !map_length|].
    intros i Hi. rewrite length_enumerate_map in Hi. unfold state_rows in Hi. rewrite map_length in Hi.
    etransitivity; [apply (nth_enumerate_map (fun i xi => vsub (N := Rnum) (mrow (i_x it) (off k + i)) xi) int_rows i [] []); unfold state_rows; rewrite map_length; exact Hi|].
    cbv beta. unfold state_rows. rewrite !(nth_map_in _ _ _ _ 0) by exact Hi.
    assert (Lr : length (mrow (i_x it) (off k + i)) = o_nx o) by (unfold mrow; rewrite map_length, seq_length; apply (io_ncx _ _ Hit)).
    apply (list_eq_nth _ _ 0).
    + unfold vsub. rewrite length_map2, !length_vec. nred. lia.
    + intros s Hs. unfold vsub in *. rewrite length_map2, length_vec in Hs. nred. rewrite Lr in Hs.
      rewrite (nth_map2 _ _ _ _ 0 0 0) by (rewrite ?length_vec; lia). rewrite !nth_vec by lia.
      assert (Er : nth s (mrow (i_x it) (off k + i)) 0 = nth s (o_scale_x o) 0 * peval (cx s) (nth i tk 0)).
      { unfold mrow. rewrite (io_ncx _ _ Hit). etransitivity; [apply (nth_map_seq (mget (i_x it) (off k + i))); lia|].
        apply (io_x _ _ Hit); auto; [lia|]. apply Hc; lia. }
      nred. etransitivity; [apply (f_equal2 Rminus Er eq_refl)|]. ring.
Qed.
End It.

(** ** one phase *)
Theorem residuals_phase_thm : exists rs segs, mapM (c_roots cf) orders = Ok rs /\
  dyn_residuals_phase rc mp p z ph (Some taus) = Ok segs /\ length segs = length orders /\
  (forall k, (k < length orders)%nat -> exists cx cu, seg_polys mp rs y k cx cu) /\
  forall k pts cx cu, nth_error taus k = Some pts -> seg_polys mp rs y k cx cu ->
    nth_error segs k = Some (match pts with
      | [] => Segres [] None None
      | _ => Segres (N := Rnum) (map (seg_time cf w y k) pts) (Some (state_rows mp (defect mp w ph y k cx cu) pts))
               (Some (state_rows mp (rate mp w ph y k cx cu) pts))
      end).
Proof.
  destruct interp_spec as (rs & it & Ers & Hl & Hg & Eit & Hit).
  pose proof (polys_exist rs Hl Hg) as Hex.
  assert (Hseg : forall k, In k (seq 0 (mp_nseg mp)) -> exists r, dyn_residual_seg mp p ph it k = Ok r).
  { intros k Hk. apply in_seq in Hk. rewrite <- (mo_len _ Hmp) in Hk. destruct (Hex k ltac:(lia)) as (cx & cu & Hc).
    rewrite (dyn_residual_seg_ok rs it Hit k cx cu ltac:(lia) Hc). eauto. }
  destruct (mapM_total _ _ Hseg) as (segs & Esegs & Ls & Hn).
  exists rs, segs. split; [exact Ers|]. split; [unfold dyn_residuals_phase_by; rewrite Eit; cbn [bind]; exact Esegs|].
  rewrite seq_length, <- (mo_len _ Hmp) in Ls. split; [exact Ls|]. split; [exact Hex|].
  intros k pts cx cu Hp Hc. assert (Hk : (k < length orders)%nat) by (rewrite <- Htl; apply nth_error_Some; congruence).
  assert (Ep : nth k taus [] = pts) by (apply nth_error_nth; exact Hp).
  specialize (Hn k k). rewrite (dyn_residual_seg_ok rs it Hit k cx cu Hk Hc), Ep in Hn.
  destruct Hn as (b & Eb & Enb).
  { rewrite nth_error_nth' with (d := 0%nat) by (rewrite seq_length, <- (mo_len _ Hmp); lia). rewrite seq_nth by (rewrite <- (mo_len _ Hmp); lia). reflexivity. }
  rewrite Enb. inversion Eb as [Eb']. destruct pts; reflexivity.
Qed.
Theorem states_phase_thm : (forall pts, In pts taus -> NoDup pts) -> exists rs segs, mapM (c_roots cf) orders = Ok rs /\
  integrate_phase rc mp p z ph (Some taus) = Ok segs /\ length segs = length orders /\
  (forall k, (k < length orders)%nat -> exists cx cu, seg_polys mp rs y k cx cu) /\
  (forall k pts cx cu, nth_error taus k = Some pts -> exists cq, dyn_interp mp w ph y k cx cu cq pts) /\
  forall k pts cx cu cq, nth_error taus k = Some pts -> seg_polys mp rs y k cx cu -> dyn_interp mp w ph y k cx cu cq pts ->
    nth_error segs k = Some (match pts with
      | [] => None
      | _ => Some (Segstate (N := Rnum) (state_rows mp (integrated mp w y k cq) pts)
               (control_rows mp (fun q tau => peval (cu q) tau) pts) (map (seg_time cf w y k) pts)
               (state_rows mp (fun s tau => peval (cx s) tau - integrated mp w y k cq s tau) pts))
      end).
Proof.
  intros Hnd. destruct interp_spec as (rs & it & Ers & Hl & Hg & Eit & Hit).
  destruct (trajectories_ok mp npath nterm z p ph Hin Hph) as (rs' & tr & _ & Etr & EX & _).
  assert (Hrep : rep mp (unpack mp z ph) y) by (pose proof (in_z _ _ _ _ _ Hin); pose proof (in_p _ _ _ _ _ Hin); eapply unpack_rep; eauto).
  pose proof (polys_exist rs Hl Hg) as Hex.
  assert (Hq : forall k pts cx cu, nth_error taus k = Some pts -> exists cq, dyn_interp mp w ph y k cx cu cq pts).
  { intros k pts cx cu Hp. unfold dyn_interp. apply (finite_choice (o_nx o) (fun s c => interpolates c pts _)).
    intros s _. apply interp_exists. apply Hnd. eapply nth_error_In; eauto. }
  assert (Hx : nc (tr_x tr) = o_nx o) by (rewrite EX; apply (rp_ncX _ _ _ Hrep)).
  assert (Hx' : forall k s, (k < length orders)%nat -> (s < o_nx o)%nat -> mget (tr_x tr) (offset orders k) s = nth s (o_scale_x o) 0 * y_x y (offset orders k) s).
  { intros k s Hk Hs. rewrite EX. apply (rp_X _ _ _ Hrep); auto. unfold total_nodes.
    pose proof (offset_mono orders k (length orders) ltac:(lia)). lia. }
  assert (Hval : forall k pts cx cu cq, nth_error taus k = Some pts -> seg_polys mp rs y k cx cu -> dyn_interp mp w ph y k cx cu cq pts ->
     integrate_seg mp p ph it (tr_x tr) k = Ok (match pts with
      | [] => None
      | _ => Some (Segstate (N := Rnum) (state_rows mp (integrated mp w y k cq) pts)
               (control_rows mp (fun q tau => peval (cu q) tau) pts) (map (seg_time cf w y k) pts)
               (state_rows mp (fun s tau => peval (cx s) tau - integrated mp w y k cq s tau) pts))
      end)).
  { intros k pts cx cu cq Hp Hc Hcq. assert (Hk : (k < length orders)%nat) by (rewrite <- Htl; apply nth_error_Some; congruence).
    assert (Ep : nth k taus [] = pts) by (apply nth_error_nth; exact Hp).
    rewrite (integrate_seg_ok rs it Hit k cx cu Hk Hc cq); rewrite ?Ep; auto; [destruct pts; reflexivity|].
    apply Hnd. eapply nth_error_In; eauto. }
  assert (Hseg : forall k, In k (seq 0 (mp_nseg mp)) -> exists r, integrate_seg mp p ph it (tr_x tr) k = Ok r).
  { intros k Hk. apply in_seq in Hk. rewrite <- (mo_len _ Hmp) in Hk. destruct (Hex k ltac:(lia)) as (cx & cu & Hc).
    assert (Hp : nth_error taus k = Some (nth k taus [])) by (apply nth_error_nth'; lia).
    destruct (Hq k _ cx cu Hp) as (cq & Hcq). rewrite (Hval _ _ _ _ _ Hp Hc Hcq). eauto. }
  destruct (mapM_total _ _ Hseg) as (segs & Esegs & Ls & Hn).
  exists rs, segs. split; [exact Ers|]. split; [unfold integrate_phase_by; nred; rewrite Etr; cbn [bind]; rewrite Eit; cbn [bind]; exact Esegs|].
  rewrite seq_length, <- (mo_len _ Hmp) in Ls. split; [exact Ls|]. split; [exact Hex|]. split; [exact Hq|].
  intros k pts cx cu cq Hp Hc Hcq. assert (Hk : (k < length orders)%nat) by (rewrite <- Htl; apply nth_error_Some; congruence).
  specialize (Hn k k). destruct Hn as (b & Eb & Enb).
  { rewrite nth_error_nth' with (d := 0%nat) by (rewrite seq_length, <- (mo_len _ Hmp); lia). rewrite seq_nth by (rewrite <- (mo_len _ Hmp); lia). reflexivity. }
  rewrite (Hval _ _ _ _ _ Hp Hc Hcq) in Eb. rewrite Enb. inversion Eb. reflexivity.
Qed.
End Nodes.
End Resid.
