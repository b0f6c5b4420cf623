(** One phase of the transcription: every block of constraints of [discretize_phase]
    expressed on the trajectory in user units (proofs). *)
From Coq Require Import Reals Lia Lra Bool Arith.
From Coquelicot Require Import Coquelicot.
From Coq Require Import List.
From Verif Require Import Num PyList Mat Poly Roots Colloc Ocp Transcribe Spec SpecOcp NumR ListR PolyR CollocR CompR MeshR BlockR.
Import ListNotations.
Open Scope R_scope.

(** solver-unit variables [v] stand for the user-unit trajectory [y] *)
Record rep (mp : mpo Rnum) (v : pvars Rnum) (y : utraj) : Prop := {
  rp_nrX : nr (v_X v) = total_nodes (mp_orders mp);
  rp_ncX : nc (v_X v) = o_nx (mp_ocp mp);
  rp_nrU : nr (v_U v) = total_nodes (mp_orders mp);
  rp_ncU : nc (v_U v) = o_nu (mp_ocp mp);
  rp_lenA : length (v_A v) = o_na (mp_ocp mp);
  rp_X : forall i s, (i < total_nodes (mp_orders mp))%nat -> (s < o_nx (mp_ocp mp))%nat ->
    mget (v_X v) i s = nth s (o_scale_x (mp_ocp mp)) 0 * y_x y i s;
  rp_U : forall i s, (i < total_nodes (mp_orders mp))%nat -> (s < o_nu (mp_ocp mp))%nat ->
    mget (v_U v) i s = nth s (o_scale_u (mp_ocp mp)) 0 * y_u y i s;
  rp_t0 : v_t0 v = o_scale_t (mp_ocp mp) * y_t0 y;
  rp_tf : v_tf v = o_scale_t (mp_ocp mp) * y_tf y;
  rp_A : forall i, (i < o_na (mp_ocp mp))%nat -> nth i (v_A v) 0 = nth i (o_scale_a (mp_ocp mp)) 0 * y_a y i
}.

Lemma nth_pos (l : list R) i n : (forall s, In s l -> 0 < s) -> length l = n -> (i < n)%nat -> 0 < nth i l 0.
Proof. intros H Hl Hi. apply H, nth_In. lia. Qed.
Lemma unscale_vec (s l : list R) n (f : nat -> R) : length s = n -> length l = n -> (forall x, In x s -> 0 < x) ->
  (forall i, (i < n)%nat -> nth i l 0 = nth i s 0 * f i) -> vunscale (N := Rnum) s l = vec n f.
Proof.
  intros Hs Hl Hp H. apply (list_eq_nth _ _ 0).
  - unfold vunscale. rewrite length_map2, length_vec. nred. lia.
  - unfold vunscale. rewrite length_map2. intros i Hi. nred. rewrite nth_vec by lia.
    rewrite (nth_map2 _ s l i 0 0 0) by lia. rewrite H by lia.
    pose proof (nth_pos s i n Hp Hs ltac:(lia)). field. lra.
Qed.

Section Phase.
Variable mp : mpo Rnum.
Hypothesis Hmp : mpo_ok mp.
Local Notation o := (mp_ocp mp).
Local Notation cf := (mp_cf mp).
Local Notation orders := (mp_orders mp).
Local Notation NN := (total_nodes orders).
Variables npath nterm : nat -> option nat.
Hypothesis Hok : ocp_ok o npath nterm.
Hypothesis Hsc : scales_pos o.
Variable rs : list (list R).
Hypothesis Hseg : seg_nodes cf orders rs.
Hypothesis Hrs : length rs = length orders.
Hypothesis Hgood : forall k p r, nth_error orders k = Some p -> nth_error rs k = Some r ->
  good_nodes (cf_tau0 cf) (cf_tau1 cf) p r.
Variables (sw : list R) (w : nat -> R).
Hypothesis Hw : forall k, (k < length orders)%nat -> at_ sw k = Ok (w k).
Variable ph : nat.
Hypothesis Hph : (ph < o_nph o)%nat.
Variables (v : pvars Rnum) (y : utraj).
Hypothesis Hrep : rep mp v y.
Variables (D : mat Rnum) (W : list R).
Hypothesis HnrD : nr D = NN.
Hypothesis HncD : nc D = NN.
Hypothesis HD : forall i k j ys c, owned orders i k j -> seg_interp orders k (nth k rs []) ys c ->
  is_derive (peval c) (nth j (nth k rs []) 0) (row_dot D i ys).

Let Hsh := ok_shapes _ _ _ Hok.
Local Notation tau k j := (nth j (nth k rs []) 0).

Lemma NN_pos : (1 <= NN)%nat.
Proof. unfold total_nodes. lia. Qed.
Lemma orders_ne : orders <> [].
Proof. intros E. pose proof (mo_len _ Hmp). pose proof (mo_nseg _ Hmp). rewrite E in H. cbn in H. lia. Qed.
Lemma npts : npoints mp = NN.
Proof. apply npoints_total. Qed.

Lemma sx_pos s : (s < o_nx o)%nat -> 0 < nth s (o_scale_x o) 0.
Proof. intros. apply (nth_pos _ _ (o_nx o)); auto. apply (sp_x _ Hsc). apply (sh_sx _ Hsh). Qed.
Lemma su_pos s : (s < o_nu o)%nat -> 0 < nth s (o_scale_u o) 0.
Proof. intros. apply (nth_pos _ _ (o_nu o)); auto. apply (sp_u _ Hsc). apply (sh_su _ Hsh). Qed.
Lemma sa_pos s : (s < o_na o)%nat -> 0 < nth s (o_scale_a o) 0.
Proof. intros. apply (nth_pos _ _ (o_na o)); auto. apply (sp_a _ Hsc). apply (sh_sa _ Hsh). Qed.
Lemma st_pos : 0 < o_scale_t o.
Proof. apply (sp_t _ Hsc). Qed.

Lemma un_x_vec i : (i < NN)%nat -> un_x mp v i = vec (o_nx o) (y_x y i).
Proof.
  intros Hi. unfold un_x. apply unscale_vec.
  - apply (sh_sx _ Hsh).
  - unfold mrow. rewrite map_length, seq_length. apply (rp_ncX _ _ _ Hrep).
  - apply (sp_x _ Hsc).
  - intros s Hs. unfold mrow. rewrite (rp_ncX _ _ _ Hrep).
    etransitivity; [apply (nth_map_seq (mget (v_X v) i)); auto|]. apply (rp_X _ _ _ Hrep); auto.
Qed.
Lemma un_u_vec i : (i < NN)%nat -> un_u mp v i = vec (o_nu o) (y_u y i).
Proof.
  intros Hi. unfold un_u. apply unscale_vec.
  - apply (sh_su _ Hsh).
  - unfold mrow. rewrite map_length, seq_length. apply (rp_ncU _ _ _ Hrep).
  - apply (sp_u _ Hsc).
  - intros s Hs. unfold mrow. rewrite (rp_ncU _ _ _ Hrep).
    etransitivity; [apply (nth_map_seq (mget (v_U v) i)); auto|]. apply (rp_U _ _ _ Hrep); auto.
Qed.
Lemma un_a_vec : un_a mp v = vec (o_na o) (y_a y).
Proof.
  unfold un_a. apply unscale_vec.
  - apply (sh_sa _ Hsh).
  - apply (rp_lenA _ _ _ Hrep).
  - apply (sp_a _ Hsc).
  - apply (rp_A _ _ _ Hrep).
Qed.
Lemma un_t0 : un_t mp (v_t0 v) = y_t0 y.
Proof. unfold un_t. rewrite (rp_t0 _ _ _ Hrep). nred. pose proof st_pos. field. lra. Qed.
Lemma un_tf : un_t mp (v_tf v) = y_tf y.
Proof. unfold un_t. rewrite (rp_tf _ _ _ Hrep). nred. pose proof st_pos. field. lra. Qed.
Lemma a_arg_of : a_arg o (un_a mp v) = a_of o y.
Proof. unfold a_arg, a_of. rewrite un_a_vec. reflexivity. Qed.
Lemma a_of_ok : arg_ok o (a_of o y).
Proof. unfold arg_ok, a_of. destruct (Nat.eqb (o_na o) 0); [reflexivity|]. eexists; split; [reflexivity|apply length_vec]. Qed.

(** ** user functions *)
Lemma at_some {A} (l : list A) n : length l = n -> (ph < n)%nat -> exists f, at_ l ph = Ok f /\ nth_error l ph = Some f.
Proof.
  intros Hl Hp. unfold at_. destruct (nth_error l ph) as [f|] eqn:E; [eauto|]. apply nth_error_None in E. lia.
Qed.
Lemma call_dyn i t : (i < NN)%nat ->
  get_dynamics o ph (un_x mp v i) (un_u mp v i) t (un_a mp v) = Ok (dyn_val o ph y i t) /\
  length (dyn_val o ph y i t) = o_nx o.
Proof.
  intros Hi. rewrite un_x_vec, un_u_vec by auto. unfold get_dynamics, dyn_val. rewrite a_arg_of.
  destruct (at_some (o_dyn o) _ (sh_dyn _ Hsh) Hph) as (f & E & En). rewrite E, En. cbn [bind].
  destruct (ok_dyn _ _ _ Hok ph f (vec (o_nx o) (y_x y i)) (vec (o_nu o) (y_u y i)) t (a_of o y) En
    (length_vec _ _) (length_vec _ _) a_of_ok) as (d & Ed & Hl).
  nred. rewrite Ed. auto.
Qed.
Lemma call_run i t : (i < NN)%nat ->
  get_running_costs o ph (un_x mp v i) (un_u mp v i) t (un_a mp v) = Ok (Some (run_val o ph y i t)).
Proof.
  intros Hi. rewrite un_x_vec, un_u_vec by auto. unfold get_running_costs, run_val. rewrite a_arg_of.
  destruct (at_some (o_run o) _ (sh_run _ Hsh) Hph) as (f & E & En). rewrite E, En. cbn [bind].
  destruct (ok_run _ _ _ Hok ph f (vec (o_nx o) (y_x y i)) (vec (o_nu o) (y_u y i)) t (a_of o y) En
    (length_vec _ _) (length_vec _ _) a_of_ok) as (d & Ed).
  nred. rewrite Ed. auto.
Qed.
Lemma call_path i t : (i < NN)%nat ->
  match npath ph with
  | None => get_path_constraints o ph (un_x mp v i) (un_u mp v i) t (un_a mp v) = Ok None /\ path_val o ph y i t = []
  | Some n => get_path_constraints o ph (un_x mp v i) (un_u mp v i) t (un_a mp v) = Ok (Some (path_val o ph y i t)) /\
      length (path_val o ph y i t) = n
  end.
Proof.
  intros Hi. rewrite un_x_vec, un_u_vec by auto. unfold get_path_constraints, path_val. rewrite a_arg_of.
  destruct (at_some (o_path o) _ (sh_path _ Hsh) Hph) as (f & E & En). rewrite E, En. cbn [bind].
  pose proof (ok_path _ _ _ Hok ph f (vec (o_nx o) (y_x y i)) (vec (o_nu o) (y_u y i)) t (a_of o y) En
    (length_vec _ _) (length_vec _ _) a_of_ok) as H. nred.
  destruct (npath ph) as [n|].
  - destruct H as (l & El & Hl). rewrite El. auto.
  - rewrite H. auto.
Qed.
Lemma row_len {T} (m : list (list T)) c : shaped m (o_nph o) c -> exists r, at_ m ph = Ok r /\ length r = c.
Proof.
  intros [Hl Hr]. destruct (at_some m _ Hl Hph) as (f & E & En). exists f. split; [exact E|]. apply Hr.
  eapply nth_error_In; eauto.
Qed.
Lemma a0_arg : exists a, (if Nat.eqb (o_na o) 0 then Ok [] else at_ (o_a0 o) ph) = Ok a /\ arg_ok o (a_arg o a).
Proof.
  unfold arg_ok, a_arg. destruct (Nat.eqb (o_na o) 0).
  - exists []. auto.
  - destruct (row_len (o_a0 o) _ (sh_a0 _ Hsh)) as (a & E & Hl). exists a. split; [exact E|]. eexists; eauto.
Qed.
Lemma has_path : has_path_constraints o ph = Ok (is_some (npath ph)).
Proof.
  unfold has_path_constraints.
  destruct (row_len (o_x00 o) _ (sh_x00 _ Hsh)) as (x & Ex & Hx). rewrite Ex. cbn [bind].
  destruct (row_len (o_u00 o) _ (sh_u00 _ Hsh)) as (u & Eu & Hu). rewrite Eu. cbn [bind].
  destruct (row_len (o_t00 o) _ (sh_t00 _ Hsh)) as (t & Et & Ht). rewrite Et. cbn [bind].
  destruct a0_arg as (a & Ea & Ha). rewrite Ea. cbn [bind]. unfold get_path_constraints.
  destruct (at_some (o_path o) _ (sh_path _ Hsh) Hph) as (f & E & En). rewrite E. cbn [bind].
  pose proof (ok_path _ _ _ Hok ph f x u (sc t) (a_arg o a) En Hx Hu Ha) as H.
  destruct (npath ph) as [n|].
  - destruct H as (l & El & Hl). rewrite El. reflexivity.
  - rewrite H. reflexivity.
Qed.
Lemma has_term : has_terminal_constraints o ph = Ok (is_some (nterm ph)).
Proof.
  unfold has_terminal_constraints.
  destruct (row_len (o_xf0 o) _ (sh_xf0 _ Hsh)) as (xf & Exf & Hxf). rewrite Exf. cbn [bind].
  destruct (row_len (o_tf0 o) _ (sh_tf0 _ Hsh)) as (tf & Etf & Htf). rewrite Etf. cbn [bind].
  destruct (row_len (o_x00 o) _ (sh_x00 _ Hsh)) as (x & Ex & Hx). rewrite Ex. cbn [bind].
  destruct (row_len (o_t00 o) _ (sh_t00 _ Hsh)) as (t & Et & Ht). rewrite Et. cbn [bind].
  destruct a0_arg as (a & Ea & Ha). rewrite Ea. cbn [bind]. unfold get_terminal_constraints.
  destruct (at_some (o_term o) _ (sh_term _ Hsh) Hph) as (f & E & En). rewrite E. cbn [bind].
  pose proof (ok_term _ _ _ Hok ph f xf (sc tf) x (sc t) (a_arg o a) En Hxf Hx Ha) as H.
  destruct (nterm ph) as [n|].
  - destruct H as (l & El & Hl). rewrite El. reflexivity.
  - rewrite H. reflexivity.
Qed.

(** ** values at the nodes *)
Record disc_spec (d : disc) : Prop := {
  ds_f_len : length (d_f d) = NN;
  ds_f : forall i k j, owned orders i k j -> nth i (d_f d) [] =
    vec (o_nx o) (fun s => seg_h cf w y k * (nth s (o_scale_x o) 0 * nth s (dyn_val o ph y i (seg_time cf w y k (tau k j))) 0));
  ds_c : match npath ph with
         | None => d_c d = None
         | Some n => exists c, d_c d = Some c /\ length c = NN /\
             forall i k j, owned orders i k j -> nth i c [] = path_val o ph y i (seg_time cf w y k (tau k j)) /\
               length (nth i c []) = n
         end;
  ds_q_len : length (d_q d) = NN;
  ds_q : forall i k j, owned orders i k j -> nth i (d_q d) 0 =
    seg_h cf w y k * run_val o ph y i (seg_time cf w y k (tau k j));
  ds_t_len : length (d_t d) = NN;
  ds_t : forall i k j, owned orders i k j -> nth i (d_t d) 0 = seg_time cf w y k (tau k j)
}.

Definition node_row (q : nat * node Rnum) : list R * list R * R :=
  (map (Rmult (nd_h (snd q))) (vscale (N := Rnum) (o_scale_x o) (dyn_val o ph y (fst q) (nd_t (snd q)))),
   path_val o ph y (fst q) (nd_t (snd q)),
   nd_h (snd q) * run_val o ph y (fst q) (nd_t (snd q))).

Lemma discretize_nodes_ok ap : ap_taus ap = rs ->
  exists d, discretize_nodes (N := Rnum) mp ap sw ph v = Ok d /\ disc_spec d.
Proof.
  intros Hap. unfold discretize_nodes. rewrite has_path. cbn [bind].
  destruct (mesh_nodes mp Hmp rs sw w y Hrs Hgood Hw) as (nodes & E & Hl & Hn).
  rewrite Hap, un_t0, un_tf. nred. rewrite E. cbn [bind].
  rewrite (mapM_ok _ node_row).
  2:{ intros [i nd] Hin. apply in_enumerate in Hin. assert (Hi : (i < NN)%nat) by (rewrite <- Hl; eapply nth_error_lt; eauto).
      destruct (call_dyn i (nd_t nd) Hi) as [Ed Hd]. nred. rewrite Ed. cbn [bind]. rewrite Hd, Nat.eqb_refl. cbn [bind].
      pose proof (call_path i (nd_t nd) Hi) as Hp. pose proof (call_run i (nd_t nd) Hi) as Hr.
      destruct (npath ph) as [n|]; cbn [is_some].
      - destruct Hp as [Ep _]. nred. rewrite Ep. cbn [bind]. rewrite Hr. cbn [bind]. reflexivity.
      - destruct Hp as [Ep Ep']. nred. cbn [bind]. rewrite Hr. cbn [bind]. unfold node_row. cbn [fst snd]. rewrite Ep'. reflexivity. }
  cbn [bind]. eexists. split; [reflexivity|].
  assert (Hrow : forall i k j, owned orders i k j ->
    nth_error (map node_row (enumerate nodes)) i = Some (node_row (i, the_node mp rs w y k j))).
  { intros i k j Ho. apply map_nth_error, nth_error_enumerate. auto. }
  split.
  - cbn [d_f]. rewrite !map_length, enumerate_length. exact Hl.
  - intros i k j Ho. cbn [d_f].
    etransitivity; [apply (nth_error_nth _ _ _ (map_nth_error _ _ _ (Hrow i k j Ho)))|].
    cbn [node_row fst snd the_node nd_h nd_t].
    assert (Hi : (i < NN)%nat) by (eapply owned_lt; eauto).
    destruct (call_dyn i (seg_time cf w y k (tau k j)) Hi) as [_ Hd].
    apply (list_eq_nth _ _ 0).
    + rewrite map_length, length_vec. unfold vscale. rewrite length_map2. pose proof (sh_sx _ Hsh). nred. lia.
    + rewrite map_length. unfold vscale. rewrite length_map2. intros s Hs. pose proof (sh_sx _ Hsh). nred.
      rewrite nth_vec by lia. rewrite (nth_map_in _ _ s 0 0) by (rewrite length_map2; lia).
      rewrite (nth_map2 _ _ _ s 0 0 0) by lia. reflexivity.
  - cbn [d_c]. destruct (npath ph) as [n|] eqn:En; cbn [is_some]; [|reflexivity].
    eexists. split; [reflexivity|]. split; [rewrite !map_length, enumerate_length; exact Hl|].
    intros i k j Ho. match goal with |- ?u = _ /\ _ => assert (Eu : u = path_val o ph y i (seg_time cf w y k (tau k j))) end.
    { etransitivity; [apply (nth_error_nth _ _ _ (map_nth_error _ _ _ (Hrow i k j Ho)))|]. reflexivity. }
    split; [exact Eu|]. rewrite Eu.
    pose proof (call_path i (seg_time cf w y k (tau k j)) (owned_lt _ _ _ _ Ho)) as Hp. rewrite En in Hp. apply Hp.
  - cbn [d_q]. rewrite !map_length, enumerate_length. exact Hl.
  - intros i k j Ho. cbn [d_q].
    etransitivity; [apply (nth_error_nth _ _ _ (map_nth_error _ _ _ (Hrow i k j Ho)))|]. reflexivity.
  - cbn [d_t]. rewrite map_length. exact Hl.
  - intros i k j Ho. cbn [d_t].
    etransitivity; [apply (nth_error_nth _ _ _ (map_nth_error _ _ _ (Hn i k j Ho)))|]. reflexivity.
Qed.

Lemma interp_seg ys k : (k < length orders)%nat -> exists c, seg_interp orders k (nth k rs []) ys c.
Proof.
  intros Hk. destruct (nth_error orders k) as [p|] eqn:Ep; [|apply nth_error_None in Ep; lia].
  pose proof (good_at mp rs Hrs Hgood k p Ep) as Hg. apply interp_exists. eapply good_nodup; eauto.
Qed.
Lemma owned_seg i k j : owned orders i k j -> (k < length orders)%nat.
Proof. intros (p & Hp & _). eapply nth_error_lt; eauto. Qed.

(** n blocks of m values between the same bounds *)
Lemma sat_blocks (g : list R) lo hi n m : length g = (n * m)%nat ->
  (sat (con_const (N := Rnum) g lo hi) <-> forall s i, (s < n)%nat -> (i < m)%nat -> within lo hi (nth (s * m + i) g 0)).
Proof.
  intros Hl. rewrite sat_const. rewrite Hl. split.
  - intros H s i Hs Hi. apply H. nia.
  - intros H i Hi. destruct (divide_index m n i Hi) as (k & j & -> & Hk & Hj). auto.
Qed.

Lemma mat_rows_ok c (rows : list (list R)) : (forall i, (i < length rows)%nat -> length (nth i rows []) = c) ->
  mat_of_rows (N := Rnum) c rows = Ok (Mat (N := Rnum) (length rows) c (fun i j => nth j (nth i rows []) 0)).
Proof.
  intros H. unfold mat_of_rows. replace (forallb _ _) with true; [reflexivity|]. symmetry. apply forallb_forall.
  intros x Hx. destruct (In_nth rows x [] Hx) as (i & Hi & <-). apply Nat.eqb_eq. apply H; auto.
Qed.

(** the values of the block: scale * (slope of the state polynomial - h * dynamics) *)
Lemma con_dynamics_full ap d : ap_D ap = D -> disc_spec d ->
  exists g : list R, con_dynamics mp ap d v = Ok (con_const (N := Rnum) g (Fin 0) (Fin 0)) /\ length g = (o_nx o * NN)%nat /\
    forall s i k j, (s < o_nx o)%nat -> owned orders i k j ->
      nth (s * NN + i) g 0 = nth s (o_scale_x o) 0 * (row_dot D i (fun i => y_x y i s) -
        seg_h cf w y k * nth s (dyn_val o ph y i (seg_time cf w y k (tau k j))) 0).
Proof.
  intros Hap Hd. unfold con_dynamics. rewrite Hap.
  destruct (block_mvmul (o_nx o) D (v_X v) (ok_nx _ _ _ Hok)) as (l & El & Hll & Hln).
  { rewrite HncD. symmetry. apply (rp_nrX _ _ _ Hrep). }
  { apply (rp_ncX _ _ _ Hrep). }
  nred. rewrite El. cbn [bind].
  assert (Hfl : forall i, (i < length (d_f d))%nat -> length (nth i (d_f d) []) = o_nx o).
  { intros i Hi. rewrite (ds_f_len _ Hd) in Hi. destruct (owned_exists orders i orders_ne Hi) as (k & j & Ho).
    rewrite (ds_f _ Hd i k j Ho). apply length_vec. }
  rewrite mat_rows_ok by exact Hfl. cbn [bind]. pose proof (ds_f_len _ Hd) as Hfn. nred. rewrite Hfn.
  match goal with |- context [mvec ?m] => set (fm := m) end.
  assert (Hlm : length (mvec fm) = (o_nx o * NN)%nat) by (rewrite length_mvec; reflexivity).
  rewrite HnrD in Hll. nred. rewrite Hll, Hlm, Nat.eqb_refl. cbn [bind].
  exists (vsub (N := Rnum) l (mvec fm)). split; [reflexivity|].
  assert (Hlv : length (vsub (N := Rnum) l (mvec fm)) = (o_nx o * NN)%nat).
  { unfold vsub. rewrite length_map2. nred. rewrite Hll, Hlm. apply Nat.min_id. }
  split; [exact Hlv|].
  intros s i k j Hs Ho. pose proof (owned_lt _ _ _ _ Ho) as Hi. unfold vsub. nred.
  assert (s * NN + i < o_nx o * NN)%nat by nia.
  rewrite (nth_map2 _ l (mvec fm) _ 0 0 0) by (nred; rewrite ?Hll, ?Hlm; auto).
  rewrite HnrD in Hln. rewrite (Hln s i Hs Hi).
  rewrite (nth_mvec_n fm NN i s eq_refl Hi Hs). cbn [fm mget]. pose proof (ds_f _ Hd i k j Ho) as Ef. nred. rewrite Ef, nth_vec by auto.
  rewrite (row_dot_ext D i _ (fun i => nth s (o_scale_x o) 0 * y_x y i s)).
  - rewrite row_dot_scal. nred. ring.
  - intros q Hq. apply (rp_X _ _ _ Hrep); auto. lia.
Qed.
Lemma con_dynamics_ok ap d : ap_D ap = D -> disc_spec d ->
  exists F, con_dynamics mp ap d v = Ok F /\ balanced F /\ length (c_g F) = (o_nx o * NN)%nat /\
    (sat F <-> dynamics_ok mp rs w ph y).
Proof.
  intros Hap Hd. destruct (con_dynamics_full ap d Hap Hd) as (g & E & Hlv & Hval).
  eexists. split; [exact E|]. split; [apply balanced_const|]. split; [exact Hlv|]. rewrite (sat_blocks _ _ _ _ _ Hlv). split.
  - intros H i k j s c Ho Hs Hc.
    specialize (H s i Hs (owned_lt _ _ _ _ Ho)).
    apply within_00 in H. rewrite (Hval s i k j Hs Ho) in H.
    pose proof (sx_pos s Hs) as Hp. nred. apply Rmult_integral in H. destruct H as [H|H]; [lra|].
    pose proof (HD i k j _ c Ho Hc) as Hder. cbn beta in Hder.
    replace (seg_h cf w y k * _) with (row_dot D i (fun i => y_x y i s)) by lra. exact Hder.
  - intros H s i Hs Hi. destruct (owned_exists orders i orders_ne Hi) as (k & j & Ho).
    rewrite (Hval s i k j Hs Ho). apply within_00.
    destruct (interp_seg (fun i => y_x y i s) k (owned_seg _ _ _ Ho)) as (c & Hc).
    pose proof (HD i k j _ c Ho Hc) as H1. specialize (H i k j s c Ho Hs Hc).
    apply is_derive_unique in H1. apply is_derive_unique in H. nred. rewrite H1 in H. rewrite H. lra.
Qed.

Lemma con_path_ok d : disc_spec d ->
  exists C, con_path (N := Rnum) d = Ok C /\ balanced C /\
    length (c_g C) = (match npath ph with None => 0 | Some n => n * NN end)%nat /\
    (sat C <-> path_ok mp rs w ph y).
Proof.
  intros Hd. unfold con_path. pose proof (ds_c _ Hd) as Hc.
  destruct (npath ph) as [n|] eqn:En.
  - destruct Hc as (c & E & Hl & Hn). rewrite E.
    assert (H0 : length (nth 0 c []) = n).
    { destruct (owned_exists orders 0 orders_ne NN_pos) as (k & j & Ho). apply (Hn 0%nat k j Ho). }
    nred. rewrite H0.
    rewrite mat_rows_ok.
    2:{ intros i Hi. rewrite Hl in Hi. destruct (owned_exists orders i orders_ne Hi) as (k & j & Ho). apply (Hn i k j Ho). }
    cbn [bind]. rewrite Hl. eexists. split; [reflexivity|]. split; [apply balanced_const|].
    match goal with |- context [mvec ?m] => set (cm := m) end.
    assert (Hlm : length (mvec cm) = (n * NN)%nat) by (rewrite length_mvec; reflexivity).
    split; [exact Hlm|]. rewrite (sat_blocks _ _ _ _ _ Hlm).
    assert (Hval : forall s i k j, (s < n)%nat -> owned orders i k j ->
      nth (s * NN + i) (mvec cm) 0 = nth s (path_val o ph y i (seg_time cf w y k (tau k j))) 0).
    { intros s i k j Hs Ho. rewrite (nth_mvec_n cm NN i s eq_refl (owned_lt _ _ _ _ Ho) Hs). cbn [cm mget].
      destruct (Hn i k j Ho) as [-> _]. reflexivity. }
    unfold LB_PATH, UB_PATH. nred. split.
    + intros H i k j x Ho Hx. destruct (Hn i k j Ho) as [Ev Hlv]. rewrite Ev in Hlv.
      destruct (In_nth _ x 0 Hx) as (s & Hs & <-). rewrite Hlv in Hs.
      rewrite <- (Hval s i k j Hs Ho). apply (H s i Hs (owned_lt _ _ _ _ Ho)).
    + intros H s i Hs Hi. destruct (owned_exists orders i orders_ne Hi) as (k & j & Ho).
      rewrite (Hval s i k j Hs Ho). split; [exact I|]. cbn [below]. apply (H i k j _ Ho). apply nth_In.
      destruct (Hn i k j Ho) as [Ev Hlv]. rewrite Ev in Hlv. lia.
  - rewrite Hc. exists con_nil. split; [reflexivity|]. split; [apply balanced_nil|]. split; [reflexivity|].
    split; [|intros; apply sat_nil]. intros _ i k j x Ho Hx.
    pose proof (call_path i (seg_time cf w y k (tau k j)) (owned_lt _ _ _ _ Ho)) as Hp. rewrite En in Hp.
    destruct Hp as [_ Hp]. rewrite Hp in Hx. destruct Hx.
Qed.

Lemma con_terminal_ok :
  exists TC, con_terminal mp ph v = Ok (TC, mayer_val o ph y (NN - 1)) /\ balanced TC /\
    length (c_g TC) = (match nterm ph with None => 0 | Some n => n end)%nat /\
    (sat TC <-> terminal_ok mp ph y).
Proof.
  unfold con_terminal. rewrite npts, un_tf, un_t0. pose proof NN_pos.
  rewrite !un_x_vec by lia. rewrite has_term. cbn [bind].
  assert (Hm : get_terminal_costs o ph (vec (o_nx o) (y_x y (NN - 1))) (y_tf y) (vec (o_nx o) (y_x y 0)) (y_t0 y) (un_a mp v)
    = Ok (Some (mayer_val o ph y (NN - 1)))).
  { unfold get_terminal_costs, mayer_val. rewrite a_arg_of.
    destruct (at_some (o_mayer o) _ (sh_mayer _ Hsh) Hph) as (f & E & En). rewrite E, En. cbn [bind].
    destruct (ok_mayer _ _ _ Hok ph f (vec (o_nx o) (y_x y (NN - 1))) (y_tf y) (vec (o_nx o) (y_x y 0)) (y_t0 y) (a_of o y) En
      (length_vec _ _) (length_vec _ _) a_of_ok) as (d & Ed). nred. rewrite Ed. reflexivity. }
  assert (Ht : match nterm ph with
    | None => get_terminal_constraints o ph (vec (o_nx o) (y_x y (NN - 1))) (y_tf y) (vec (o_nx o) (y_x y 0)) (y_t0 y) (un_a mp v)
        = Ok None /\ term_val o ph y (NN - 1) = []
    | Some n => get_terminal_constraints o ph (vec (o_nx o) (y_x y (NN - 1))) (y_tf y) (vec (o_nx o) (y_x y 0)) (y_t0 y) (un_a mp v)
        = Ok (Some (term_val o ph y (NN - 1))) /\ length (term_val o ph y (NN - 1)) = n
    end).
  { unfold get_terminal_constraints, term_val. rewrite a_arg_of.
    destruct (at_some (o_term o) _ (sh_term _ Hsh) Hph) as (f & E & En). rewrite E, En. cbn [bind].
    pose proof (ok_term _ _ _ Hok ph f (vec (o_nx o) (y_x y (NN - 1))) (y_tf y) (vec (o_nx o) (y_x y 0)) (y_t0 y) (a_of o y) En
      (length_vec _ _) (length_vec _ _) a_of_ok) as Hq. nred. destruct (nterm ph) as [n|].
    - destruct Hq as (l & El & Hl). rewrite El. auto.
    - rewrite Hq. auto. }
  unfold terminal_ok. nred. destruct (nterm ph) as [n|]; cbn [is_some].
  - destruct Ht as [Et Hl]. rewrite Et. cbn [bind]. rewrite Hm. cbn [bind].
    eexists. split; [reflexivity|]. split; [apply balanced_const|]. split; [exact Hl|].
    rewrite sat_const_in. unfold LB_TERM, UB_TERM. nred. split; intros Hx x Hin; specialize (Hx x Hin); apply within_00; auto.
  - destruct Ht as [_ Et]. rewrite Et. cbn [bind]. rewrite Hm. cbn [bind].
    exists con_nil. split; [reflexivity|]. split; [apply balanced_nil|]. split; [reflexivity|].
    split; [intros _ c []|intros _; apply sat_nil].
Qed.

Lemma con_slope_ok ap : ap_D ap = D ->
  exists DU, con_slope mp ap ph v = Ok DU /\ balanced DU /\
    length (c_g DU) = (if nth ph (o_diff_u o) false then o_nu o * NN else 0)%nat /\
    (sat DU <-> slope_ok mp rs ph y).
Proof.
  intros Hap. unfold con_slope. rewrite (at_ok (o_diff_u o) ph false) by (rewrite (ok_diff_u _ _ _ Hok); auto).
  cbn [bind]. unfold slope_ok. destruct (nth ph (o_diff_u o) false) eqn:Edu.
  - rewrite Hap. destruct (block_mvmul (o_nu o) D (v_U v)) as (l & El & Hll & Hln).
    { apply (ok_nu _ _ _ Hok ph); auto. }
    { rewrite HncD. symmetry. apply (rp_nrU _ _ _ Hrep). }
    { apply (rp_ncU _ _ _ Hrep). }
    nred. rewrite El. cbn [bind].
    rewrite (at_ok (A := ext R) (o_lbdu o) ph NaN) by (pose proof (ok_lbdu _ _ _ Hok); nred; lia).
    rewrite (at_ok (A := ext R) (o_ubdu o) ph NaN) by (pose proof (ok_ubdu _ _ _ Hok); nred; lia). cbn [bind].
    eexists. split; [reflexivity|]. split; [apply balanced_const|]. rewrite HnrD in *.
    split; [exact Hll|]. rewrite (sat_blocks _ _ _ _ _ Hll).
    assert (Hval : forall s i k j c, (s < o_nu o)%nat -> owned orders i k j ->
      seg_interp orders k (nth k rs []) (fun i => y_u y i s) c ->
      nth (s * NN + i) l 0 = nth s (o_scale_u o) 0 * Derive (peval c) (tau k j)).
    { intros s i k j c Hs Ho Hc. rewrite (Hln s i Hs (owned_lt _ _ _ _ Ho)).
      rewrite (row_dot_ext D i _ (fun i => nth s (o_scale_u o) 0 * y_u y i s)).
      - rewrite row_dot_scal. f_equal. symmetry. apply is_derive_unique. apply (HD i k j _ c Ho Hc).
      - intros q Hq. apply (rp_U _ _ _ Hrep); auto. lia. }
    nred. split.
    + intros H _ i k j q c Ho Hq Hc. rewrite <- (Hval q i k j c Hq Ho Hc). apply H; auto. eapply owned_lt; eauto.
    + intros H s i Hs Hi. destruct (owned_exists orders i orders_ne Hi) as (k & j & Ho).
      destruct (interp_seg (fun i => y_u y i s) k (owned_seg _ _ _ Ho)) as (c & Hc).
      rewrite (Hval s i k j c Hs Ho Hc). eapply H; eauto.
  - exists con_nil. split; [reflexivity|]. split; [apply balanced_nil|]. split; [reflexivity|].
    split; [intros _ ?; discriminate|intros _; apply sat_nil].
Qed.

(** ** control at mid points *)
Lemma mid_points_length (r : list R) : length (mid_points (N := Rnum) r) = (length r - 1)%nat.
Proof. induction r as [|a r IH]; [reflexivity|]. destruct r as [|b r]; [reflexivity|]. cbn [mid_points length] in *. nred. lia. Qed.
Lemma mid_points_nth (r : list R) j : (S j < length r)%nat ->
  nth j (mid_points (N := Rnum) r) 0 = (nth j r 0 + nth (S j) r 0) / 2.
Proof.
  revert j; induction r as [|a r IH]; intros j Hj; [cbn in Hj; lia|]. destruct r as [|b r]; [cbn in Hj; lia|].
  cbn [mid_points]. destruct j as [|j].
  - cbn [nth]. nred. lra.
  - change (nth (S j) (?h :: ?t) 0) with (nth j t 0). cbn [nth] in *. rewrite <- IH by (cbn in *; lia). reflexivity.
Qed.
Lemma mapM_then {A B C} (f : A -> res B) (g : B -> C) l bs : mapM f l = Ok bs ->
  mapM (fun a => b <- f a ;; Ok (g b)) l = Ok (map g bs).
Proof.
  revert bs; induction l as [|a l IH]; intros bs H; cbn [mapM] in *; [inversion H; reflexivity|].
  destruct (f a) as [b|]; [|discriminate]. cbn [bind] in *. destruct (mapM f l) as [bs'|]; [|discriminate]. cbn [bind] in *.
  inversion H; subst. rewrite (IH bs' eq_refl). reflexivity.
Qed.
Lemma mids_orders : map (@length R) (map (mid_points (N := Rnum)) rs) = orders.
Proof.
  apply (list_eq_nth _ _ 0%nat).
  - rewrite !map_length. exact Hrs.
  - rewrite !map_length. intros k Hk. rewrite map_map. nred.
    rewrite (nth_map_in _ _ k 0%nat []) by auto. rewrite mid_points_length.
    destruct (nth_error orders k) as [p|] eqn:Ep; [|apply nth_error_None in Ep; lia].
    rewrite (nth_error_nth _ _ 0%nat Ep).
    destruct (good_at mp rs Hrs Hgood k p Ep) as (Hl & _). nred. lia.
Qed.
Lemma seg_of i : (i < offset orders (length orders))%nat ->
  exists k p j, nth_error orders k = Some p /\ (j < p)%nat /\ i = (offset orders k + j)%nat.
Proof.
  intros Hi. destruct (owned_exists orders (S i) orders_ne ltac:(unfold total_nodes; lia)) as (k & j & p & Hk & Hj & Hkj & E).
  destruct j as [|j].
  - destruct Hkj as [->|]; [rewrite offset_0 in E|]; lia.
  - exists k, p, j. split; [exact Hk|]. lia.
Qed.
Lemma inf_bounds q : (q < o_nu o)%nat -> 
  existsb (fun b => eltb NInf b) (nth ph (o_lbu o) []) = false ->
  existsb (fun b => eltb b PInf) (nth ph (o_ubu o) []) = false ->
  bnd ph (o_lbu o) q = NInf /\ bnd ph (o_ubu o) q = PInf.
Proof.
  intros Hq H1 H2. pose proof (sh_u _ Hsh ph q Hph Hq) as Ho. unfold bnd.
  destruct (row_len (o_lbu o) _ (sh_lbu _ Hsh)) as (lb & El & Hll). pose proof (at_inv_nth _ _ _ [] El) as Nl.
  destruct (row_len (o_ubu o) _ (sh_ubu _ Hsh)) as (ub & Eu & Hlu). pose proof (at_inv_nth _ _ _ [] Eu) as Nu.
  nred. rewrite Nl, Nu in *.
  assert (A : eltb (N := Rnum) NInf (nth q lb NaN) = false).
  { destruct (eltb (N := Rnum) NInf (nth q lb NaN)) eqn:E; [|reflexivity]. exfalso.
    assert (existsb (fun b => eltb (N := Rnum) NInf b) lb = true) by (apply existsb_exists; exists (nth q lb NaN); split; [apply nth_In; lia|auto]).
    nred. congruence. }
  assert (B : eltb (N := Rnum) (nth q ub NaN) PInf = false).
  { destruct (eltb (N := Rnum) (nth q ub NaN) PInf) eqn:E; [|reflexivity]. exfalso.
    assert (existsb (fun b => eltb (N := Rnum) b PInf) ub = true) by (apply existsb_exists; exists (nth q ub NaN); split; [apply nth_In; lia|auto]).
    nred. congruence. }
  destruct (nth q lb NaN); cbn in A; try discriminate; destruct (nth q ub NaN); cbn in B; try discriminate; cbn in Ho; try contradiction; auto.
Qed.

(** n blocks of m values; bounds scaled block by block *)
Lemma sat_bound_block (g : list R) (lb ub : list (ext R)) (sc : list R) n m : length g = (n * m)%nat ->
  length lb = n -> length ub = n -> length sc = n ->
  balanced (Con (N := Rnum) g (bound_block (N := Rnum) lb sc m) (bound_block (N := Rnum) ub sc m)) /\
  (sat (Con (N := Rnum) g (bound_block (N := Rnum) lb sc m) (bound_block (N := Rnum) ub sc m)) <->
   forall s i, (s < n)%nat -> (i < m)%nat ->
     within (escale (N := Rnum) (nth s lb NaN) (nth s sc 0)) (escale (N := Rnum) (nth s ub NaN) (nth s sc 0)) (nth (s * m + i) g 0)).
Proof.
  intros Hg Hl Hu Hs.
  assert (Hlen : forall b : list (ext R), length b = n -> length (bound_block (N := Rnum) b sc m) = (n * m)%nat).
  { intros b Hb. unfold bound_block. rewrite length_repeat_each, length_map2. nred. rewrite Hb, Hs, Nat.min_id. reflexivity. }
  assert (Hnth : forall b : list (ext R), length b = n -> forall s i, (s < n)%nat -> (i < m)%nat ->
    nth (s * m + i) (bound_block (N := Rnum) b sc m) NaN = escale (N := Rnum) (nth s b NaN) (nth s sc 0)).
  { intros b Hb s i H1 H2. unfold bound_block. rewrite nth_repeat_each; [|rewrite length_map2; nred; lia|auto].
    rewrite (nth_map2 _ b sc s NaN NaN 0) by (nred; lia). reflexivity. }
  split.
  - split; cbn [c_g c_lo c_hi]; nred; rewrite Hlen; auto.
  - unfold sat. cbn [c_g c_lo c_hi]. nred. rewrite Hg. split.
    + intros H s i H1 H2. rewrite <- (Hnth lb Hl s i), <- (Hnth ub Hu s i) by auto. apply H. nia.
    + intros H i Hi. destruct (divide_index m n i Hi) as (k & j & -> & Hk & Hj).
      nred. rewrite (Hnth lb Hl k j), (Hnth ub Hu k j) by auto. auto.
Qed.

(** the values of the block: scale * (control polynomial at the mid point) *)
Lemma con_midu_full :
  if (nth ph (o_midu o) false && some_finite o ph)%bool then
    exists g : list R, con_midu mp ph v = Ok (Con (N := Rnum) g (bound_block (N := Rnum) (nth ph (o_lbu o) []) (o_scale_u o) (NN - 1))
                                     (bound_block (N := Rnum) (nth ph (o_ubu o) []) (o_scale_u o) (NN - 1))) /\
      length g = (o_nu o * (NN - 1))%nat /\
      forall q k p j c, (q < o_nu o)%nat -> nth_error orders k = Some p -> (j < p)%nat ->
        seg_interp orders k (nth k rs []) (fun i => y_u y i q) c ->
        nth (q * (NN - 1) + (offset orders k + j)) g 0 = nth q (o_scale_u o) 0 * peval c ((tau k j + tau k (S j)) / 2)
  else con_midu mp ph v = Ok con_nil.
Proof.
  pose proof mids_orders as Hmo.
  unfold con_midu. rewrite (at_ok (o_midu o) ph false) by (rewrite (ok_midu _ _ _ Hok); auto).
  cbn [bind]. destruct (nth ph (o_midu o) false) eqn:Em; cbn [negb].
  2:{ reflexivity. }
  rewrite (mapM_then (c_roots cf) (mid_points (N := Rnum)) orders rs (proj1 Hseg)). cbn [bind].
  destruct (comp_interp_ok cf (map (mid_points (N := Rnum)) rs) orders rs Hseg) as (I & EI & HrI & HcI & HI).
  { rewrite map_length. exact Hrs. }
  nred. rewrite EI. cbn [bind]. rewrite HcI, (rp_nrU _ _ _ Hrep), Nat.eqb_refl. cbn [bind].
  destruct (row_len (o_lbu o) _ (sh_lbu _ Hsh)) as (lb & El & Hll). pose proof (at_inv_nth _ _ _ [] El) as Nl.
  destruct (row_len (o_ubu o) _ (sh_ubu _ Hsh)) as (ub & Eu & Hlu). pose proof (at_inv_nth _ _ _ [] Eu) as Nu.
  nred. rewrite El, Eu. cbn [bind].
  assert (Esf : some_finite o ph = (existsb (fun b => eltb (N := Rnum) NInf b) lb || existsb (fun b => eltb (N := Rnum) b PInf) ub)%bool).
  { unfold some_finite. nred. rewrite Nl, Nu.
    assert (X1 : forall l : list (ext R), existsb (fun b => match b with NInf | NaN => false | _ => true end) l = existsb (fun b => eltb (N := Rnum) NInf b) l)
      by (induction l as [|b l IH]; [reflexivity|]; cbn [existsb]; rewrite IH; destruct b; reflexivity).
    assert (X2 : forall l : list (ext R), existsb (fun b => match b with PInf | NaN => false | _ => true end) l = existsb (fun b => eltb (N := Rnum) b PInf) l)
      by (induction l as [|b l IH]; [reflexivity|]; cbn [existsb]; rewrite IH; destruct b; reflexivity).
    rewrite X1, X2. reflexivity. }
  rewrite Esf. cbn [andb]. nred.
  destruct (existsb _ lb || existsb _ ub)%bool eqn:Ex; [|reflexivity].
  assert (HrI' : nr I = (NN - 1)%nat).
  { rewrite HrI, Hmo, map_length, Hrs. unfold total_nodes. lia. }
  set (ui := mmul I (v_U v)).
  assert (Hrui : nr ui = (NN - 1)%nat) by exact HrI'.
  assert (Hcui : nc ui = o_nu o) by apply (rp_ncU _ _ _ Hrep).
  assert (Hlg : length (mvec ui) = (o_nu o * (NN - 1))%nat) by (rewrite length_mvec, Hrui, Hcui; reflexivity).
  rewrite Hrui, Nl, Nu. exists (mvec ui). split; [reflexivity|]. split; [exact Hlg|].
  intros q k p j c Hq Hk Hj Hc.
  assert (Hi : (offset orders k + j < NN - 1)%nat).
  { pose proof (offset_S _ _ _ Hk). pose proof (offset_mono orders (S k) (length orders)). pose proof (nth_error_lt _ _ _ Hk). unfold total_nodes. lia. }
  pose proof (good_at mp rs Hrs Hgood k p Hk) as (Hlr & _).
  assert (Hr : nth_error rs k = Some (nth k rs [])) by (apply nth_error_nth'; rewrite Hrs; eapply nth_error_lt; eauto).
  etransitivity; [exact (nth_mvec_n ui (NN - 1) (offset orders k + j) q Hrui Hi ltac:(rewrite Hcui; exact Hq))|].
  unfold ui. cbn [mmul mget]. rewrite sumf_R, HcI.
  pose proof (HI k p _ _ j (fun i => y_u y i q) c Hk Hr (map_nth_error (mid_points (N := Rnum)) _ _ Hr)) as E.
  nred. rewrite mid_points_length, Hmo in E. specialize (E ltac:(lia) Hc).
  rewrite mid_points_nth in E by lia. rewrite <- E, <- Rsum_scal. apply Rsum_ext. intros i Hin.
  rewrite (rp_U _ _ _ Hrep) by auto. nred. ring.
Qed.
Lemma con_midu_ok :
  exists mU, con_midu mp ph v = Ok mU /\ balanced mU /\
    length (c_g mU) = (if nth ph (o_midu o) false && some_finite o ph then o_nu o * (NN - 1) else 0)%nat /\
    (sat mU <-> midu_ok mp rs ph y).
Proof.
  pose proof con_midu_full as H. unfold midu_ok. destruct (nth ph (o_midu o) false) eqn:Em; cbn [andb] in H |- *.
  2:{ exists con_nil. split; [exact H|]. split; [apply balanced_nil|]. split; [reflexivity|].
      split; [intros _ ?; discriminate|intros _; apply sat_nil]. }
  destruct (row_len (o_lbu o) _ (sh_lbu _ Hsh)) as (lb & El & Hll). pose proof (at_inv_nth _ _ _ [] El) as Nl.
  destruct (row_len (o_ubu o) _ (sh_ubu _ Hsh)) as (ub & Eu & Hlu). pose proof (at_inv_nth _ _ _ [] Eu) as Nu.
  destruct (some_finite o ph) eqn:Esf.
  - destruct H as (g & E & Hlg & Hval). nred. rewrite Nl, Nu in E.
    destruct (sat_bound_block g lb ub (o_scale_u o) (o_nu o) (NN - 1) Hlg Hll Hlu (sh_su _ Hsh)) as [Hb Hs].
    eexists. split; [exact E|]. split; [exact Hb|]. split; [exact Hlg|]. etransitivity; [exact Hs|]. clear Hs Hb. nred.
    unfold bnd. nred. rewrite Nl, Nu. split.
    + intros H _ k p j q c Hk Hj Hq Hc.
      assert (Hi : (offset orders k + j < NN - 1)%nat).
      { pose proof (offset_S _ _ _ Hk). pose proof (offset_mono orders (S k) (length orders)). pose proof (nth_error_lt _ _ _ Hk). unfold total_nodes. lia. }
      specialize (H q (offset orders k + j)%nat Hq Hi). rewrite (Hval q k p j c Hq Hk Hj Hc) in H.
      apply within_scale in H; [exact H|apply su_pos; auto].
    + intros H q i Hq Hi. destruct (seg_of i) as (k & p & j & Hk & Hj & ->); [unfold total_nodes in Hi; lia|].
      destruct (interp_seg (fun i => y_u y i q) k (nth_error_lt _ _ _ Hk)) as (c & Hc).
      rewrite (Hval q k p j c Hq Hk Hj Hc). apply within_scale; [apply su_pos; auto|]. eapply H; eauto.
  - exists con_nil. split; [exact H|]. split; [apply balanced_nil|]. split; [reflexivity|].
    split; [|intros; apply sat_nil]. intros _ _ k p j q c Hk Hj Hq Hc. unfold some_finite in Esf. nred. rewrite Nl, Nu in Esf. apply orb_false_elim in Esf. destruct Esf as [Ex1 Ex2].
    destruct (inf_bounds q Hq) as [-> ->]; [nred; rewrite Nl|nred; rewrite Nu|split; constructor].
    + rewrite <- Ex1. clear. induction lb as [|b l IH]; [reflexivity|]. cbn [existsb]. rewrite IH. destruct b; reflexivity.
    + rewrite <- Ex2. clear. induction ub as [|b l IH]; [reflexivity|]. cbn [existsb]. rewrite IH. destruct b; reflexivity.
Qed.

(** ** slope continuity *)
Lemma slice_seq a b s n : (b <= n)%nat -> slice a b (seq s n) = seq (s + a) (b - a).
Proof.
  intros Hb. unfold slice. destruct (Nat.le_gt_cases a b).
  - replace n with (a + (n - a))%nat by lia. rewrite seq_app, skipn_app, seq_length, skipn_all2 by (rewrite seq_length; lia).
    rewrite Nat.sub_diag. cbn [skipn app]. replace (n - a)%nat with ((b - a) + (n - b))%nat by lia.
    rewrite seq_app, firstn_app, seq_length, Nat.sub_diag. cbn [firstn]. rewrite app_nil_r.
    apply firstn_all2. rewrite seq_length. lia.
  - replace (b - a)%nat with 0%nat by lia. reflexivity.
Qed.
Lemma every2_seq m a : every2 (seq a (2 * m)) = map (fun k => a + 2 * k)%nat (seq 0 m) /\
  every2 (seq a (2 * m + 1)) = map (fun k => a + 2 * k)%nat (seq 0 (m + 1)).
Proof.
  revert a; induction m as [|m IH]; intros a; [cbn; rewrite Nat.add_0_r; auto|].
  replace (2 * S m)%nat with (S (S (2 * m))) by lia.
  replace (S (S (2 * m)) + 1)%nat with (S (S (2 * m + 1))) by lia.
  replace (S m + 1)%nat with (S (m + 1)) by lia. cbn [seq every2 map].
  destruct (IH (S (S a))) as [-> ->]. rewrite <- !seq_shift, !map_map.
  split; f_equal; try lia; apply map_ext; intros; lia.
Qed.
Lemma rows1_eq K : (1 <= K)%nat -> rows_1_m1_2 (2 * K) = map (fun k => 2 * k + 1)%nat (seq 0 (K - 1)).
Proof.
  intros HK. unfold rows_1_m1_2. rewrite slice_seq by lia. replace (2 * K - 1 - 1)%nat with (2 * (K - 1))%nat by lia.
  destruct (every2_seq (K - 1) (0 + 1)) as [-> _]. apply map_ext. intros; lia.
Qed.
Lemma rows2_eq K : (2 <= K)%nat -> rows_2_m1_2 (2 * K) = map (fun k => 2 * S k)%nat (seq 0 (K - 1)).
Proof.
  intros HK. unfold rows_2_m1_2. rewrite slice_seq by lia. replace (2 * K - 1 - 2)%nat with (2 * (K - 2) + 1)%nat by lia.
  destruct (every2_seq (K - 2) (0 + 2)) as [_ ->]. replace (K - 2 + 1)%nat with (K - 1)%nat by lia. apply map_ext. intros; lia.
Qed.
Lemma offset_const2 {A} (l : list A) (e : list R) k : length e = 2%nat -> (k <= length l)%nat ->
  offset (map (@length R) (map (fun _ => e) l)) k = (2 * k)%nat.
Proof.
  intros He. revert k; induction l as [|a l IH]; intros [|k] Hk; cbn in Hk; try lia; [reflexivity|reflexivity|].
  cbn [map offset]. rewrite IH by lia. lia.
Qed.

Lemma con_ducont_ok :
  exists dU, con_ducont mp ph v = Ok dU /\ balanced dU /\
    length (c_g dU) = (if nth ph (o_ducont o) false then o_nu o * (mp_nseg mp - 1) else 0)%nat /\
    (sat dU <-> ducont_ok mp rs ph y).
Proof.
  unfold con_ducont, ducont_ok. rewrite (at_ok (o_ducont o) ph false) by (rewrite (ok_ducont _ _ _ Hok); auto).
  pose proof (mo_len _ Hmp) as HK. pose proof (mo_nseg _ Hmp) as HK1.
  cbn [bind]. destruct (nth ph (o_ducont o) false) eqn:Em; cbn [negb].
  2:{ rewrite orb_true_r. exists con_nil. split; [reflexivity|]. split; [apply balanced_nil|]. split; [reflexivity|].
      split; [intros _ ?; discriminate|intros _; apply sat_nil]. }
  rewrite orb_false_r. destruct (Nat.eqb_spec (mp_nseg mp) 1) as [E1|E1].
  - exists con_nil. split; [reflexivity|]. split; [apply balanced_nil|]. split; [rewrite E1; cbn; lia|].
    split; [intros _ _ k q c c' Hk; lia|intros _; apply sat_nil].
  - set (e := [cf_tau0 cf; cf_tau1 cf] : list R). set (K := length orders) in *.
    destruct (comp_interpD_ok cf (map (fun _ => e) orders) orders rs 1 Hseg) as (M & EM & HrM & HcM & HM).
    { apply map_length. } { auto. }
    nred. fold e. rewrite EM. cbn [bind].
    rewrite offset_const2 in HrM by (rewrite ?map_length; auto). rewrite map_length in HrM. fold K in HrM.
    rewrite HrM, rows1_eq, rows2_eq by lia. cbn [nr take_rows]. rewrite !map_length, !seq_length, Nat.eqb_refl. cbn [bind].
    match goal with |- context [block_diag _ ?m] => set (B := m) end.
    destruct (block_mvmul (o_nu o) B (v_U v)) as (l & El & Hll & Hln).
    { apply (ok_nu _ _ _ Hok ph); auto. }
    { unfold B. cbn [msub take_rows nc]. rewrite HcM. symmetry. apply (rp_nrU _ _ _ Hrep). }
    { apply (rp_ncU _ _ _ Hrep). }
    assert (HnB : nr B = (K - 1)%nat) by (unfold B; cbn [msub take_rows nr]; rewrite map_length, seq_length; reflexivity).
    assert (HcB : nc B = NN) by exact HcM.
    rewrite HnB in *. nred. rewrite El. cbn [bind].
    eexists. split; [reflexivity|]. split; [apply balanced_const|].
    split; [cbn [con_const c_g]; nred; rewrite Hll; fold K in HK; lia|]. rewrite (sat_blocks _ _ _ _ _ Hll).
    assert (Hval : forall q k c c', (q < o_nu o)%nat -> (S k < K)%nat ->
      seg_interp orders k (nth k rs []) (fun i => y_u y i q) c ->
      seg_interp orders (S k) (nth (S k) rs []) (fun i => y_u y i q) c' ->
      nth (q * (K - 1) + k) l 0 = nth q (o_scale_u o) 0 * (Derive (peval c) (cf_tau1 cf) - Derive (peval c') (cf_tau0 cf))).
    { intros q k c c' Hq Hk Hc Hc'. rewrite (Hln q k Hq ltac:(lia)).
      rewrite (row_dot_ext B k _ (fun i => nth q (o_scale_u o) 0 * y_u y i q)).
      2:{ intros i Hi. apply (rp_U _ _ _ Hrep); auto. lia. }
      rewrite row_dot_scal. f_equal. unfold row_dot. rewrite HcB. unfold B. cbn [msub take_rows mget].
      rewrite !nth_map_seq by lia. nred.
      rewrite (Rsum_ext _ _ (fun j => mget M (2 * k + 1) j * y_u y j q - mget M (2 * S k) j * y_u y j q)) by (intros; ring).
      rewrite Rsum_minus.
      assert (He : forall i, (i < K)%nat -> exists p, nth_error orders i = Some p /\ nth_error rs i = Some (nth i rs []) /\
         nth_error (map (fun _ => e) orders) i = Some e /\ offset (map (@length R) (map (fun _ => e) orders)) i = (2 * i)%nat).
      { intros i Hi. destruct (nth_error orders i) as [p|] eqn:Ep; [|apply nth_error_None in Ep; fold K in Ep; lia].
        exists p. split; [reflexivity|]. split; [apply nth_error_nth'; rewrite Hrs; exact Hi|].
        split; [rewrite (map_nth_error _ _ _ Ep); reflexivity|]. apply offset_const2; [reflexivity|fold K; lia]. }
      destruct (He k ltac:(lia)) as (p & H1 & H2 & H3 & H4).
      destruct (He (S k) Hk) as (p' & H1' & H2' & H3' & H4').
      pose proof (HM k p _ e 1%nat (fun i => y_u y i q) c H1 H2 H3 ltac:(cbn; lia) Hc) as Q1.
      pose proof (HM (S k) p' _ e 0%nat (fun i => y_u y i q) c' H1' H2' H3' ltac:(cbn; lia) Hc') as Q2.
      rewrite H4 in Q1. rewrite H4', Nat.add_0_r in Q2. rewrite Q1, Q2. cbn [nth e].
      rewrite (is_derive_unique _ _ _ (dform1_derive c (cf_tau1 cf))), (is_derive_unique _ _ _ (dform1_derive c' (cf_tau0 cf))).
      reflexivity. }
    nred. split.
    + intros H _ k q c c' Hk Hq Hc Hc'. specialize (H q k Hq ltac:(lia)). apply within_00 in H.
      rewrite (Hval q k c c' Hq Hk Hc Hc') in H. pose proof (su_pos q Hq). nred. apply Rmult_integral in H. lra.
    + intros H q k Hq Hk. apply within_00.
      destruct (interp_seg (fun i => y_u y i q) k ltac:(fold K; lia)) as (c & Hc).
      destruct (interp_seg (fun i => y_u y i q) (S k) ltac:(fold K; lia)) as (c' & Hc').
      rewrite (Hval q k c c' Hq ltac:(lia) Hc Hc').
      rewrite (H eq_refl k q c c') by (auto; lia). lra.
Qed.

(** ** cost *)
Hypothesis HlW : length W = NN.
Hypothesis HW : forall ys, Rsum NN (fun j => nth j W 0 * ys j) =
  ell_int (nth 0 rs []) (cf_tau0 cf) (cf_tau1 cf) 0 * ys 0%nat +
  Rsum (length orders) (fun k => Rsum (nth k orders 0%nat)
    (fun j => ell_int (nth k rs []) (cf_tau0 cf) (cf_tau1 cf) (S j) * ys (offset orders k + S j)%nat)).

Lemma rsum_map2 (l m : list R) n : length l = n -> length m = n ->
  rsum (map2 Rmult l m) = Rsum n (fun j => nth j l 0 * nth j m 0).
Proof.
  intros Hl Hm. rewrite rsum_nth, length_map2. replace (Nat.min (length l) (length m)) with n by lia.
  apply Rsum_ext. intros k Hk. apply nth_map2; lia.
Qed.
Lemma quad_cost d C B : disc_spec d -> cost_interp mp rs w ph y C -> start_basis mp rs B ->
  sum_ (N := Rnum) (map2 Rmult W (d_q d)) =
  Rsum (length orders) (fun k => seg_h cf w y k * RInt (peval (C k)) (cf_tau0 cf) (cf_tau1 cf))
  - start_cost mp rs w ph y B.
Proof.
  intros Hd HC HB. rewrite sum_R. rewrite (rsum_map2 _ _ NN HlW (ds_q_len _ Hd)).
  transitivity (Rsum NN (fun j => nth j W 0 * nth j (d_q d) 0)); [reflexivity|].
  rewrite HW.
  assert (Hpos := mo_pos _ Hmp).
  assert (Hseg1 : forall k p, nth_error orders k = Some p ->
    Rsum p (fun j => ell_int (nth k rs []) (cf_tau0 cf) (cf_tau1 cf) (S j) * nth (offset orders k + S j) (d_q d) 0)
    = seg_h cf w y k * (RInt (peval (C k)) (cf_tau0 cf) (cf_tau1 cf)
        - ell_int (nth k rs []) (cf_tau0 cf) (cf_tau1 cf) 0 * run_at mp rs w ph y k 0)).
  { intros k p Hk. pose proof (good_at mp rs Hrs Hgood k p Hk) as Hg. pose proof (good_nodup _ _ _ _ Hg) as Hnd.
    destruct Hg as (Hlr & _).
    destruct (HC k (nth_error_lt _ _ _ Hk)) as [Hc1 Hc2].
    pose proof (weights_exact (nth k rs []) (C k) (cf_tau0 cf) (cf_tau1 cf) Hnd Hc1) as HE.
    nred. rewrite Hlr, Rsum_S_l in HE. fold (ell_int (nth k rs []) (cf_tau0 cf) (cf_tau1 cf) 0) in HE.
    rewrite (Hc2 0%nat ltac:(lia)) in HE. rewrite <- HE.
    match goal with |- _ = _ * (?u + ?v - ?u') => replace (u + v - u') with v by (unfold ell_int; lra) end.
    rewrite <- Rsum_scal. apply Rsum_ext. intros j Hj.
    rewrite (Hc2 (S j)) by lia. unfold run_at.
    assert (Ho : owned orders (offset orders k + S j) k (S j)) by (exists p; split; [exact Hk|lia]).
    pose proof (ds_q _ Hd _ _ _ Ho) as Eq. nred. rewrite Eq.
    fold (ell_int (nth k rs []) (cf_tau0 cf) (cf_tau1 cf) (S j)). ring. }
  rewrite (Rsum_ext _ _ (fun k => seg_h cf w y k * (RInt (peval (C k)) (cf_tau0 cf) (cf_tau1 cf)
        - ell_int (nth k rs []) (cf_tau0 cf) (cf_tau1 cf) 0 * run_at mp rs w ph y k 0))).
  2:{ intros k Hk. apply Hseg1. apply nth_error_nth'; auto. }
  rewrite (Rsum_ext _ _ (fun k => seg_h cf w y k * RInt (peval (C k)) (cf_tau0 cf) (cf_tau1 cf)
        - seg_h cf w y k * ell_int (nth k rs []) (cf_tau0 cf) (cf_tau1 cf) 0 * run_at mp rs w ph y k 0)) by (intros; ring).
  rewrite Rsum_minus.
  assert (Hq0 : nth 0 (d_q d) 0 = seg_h cf w y 0 * run_at mp rs w ph y 0 0).
  { destruct (nth_error orders 0) as [p|] eqn:Ep.
    2:{ exfalso. apply nth_error_None in Ep. pose proof (mo_nseg _ Hmp). pose proof (mo_len _ Hmp). lia. }
    unfold run_at. rewrite offset_0. assert (Ho : owned orders 0 0 0) by (exists p; rewrite offset_0; split; [exact Ep|lia]).
    exact (ds_q _ Hd _ _ _ Ho). }
  nred. rewrite Hq0.
  assert (HK : exists K, length orders = S K).
  { pose proof (mo_nseg _ Hmp). pose proof (mo_len _ Hmp). exists (length orders - 1)%nat. lia. }
  destruct HK as [K HK]. unfold start_cost. rewrite HK. cbn [Nat.sub]. rewrite Nat.sub_0_r.
  rewrite (Rsum_S_l K (fun k => seg_h cf w y k * ell_int _ _ _ 0 * _)).
  match goal with |- ?a + (?b - (?c + ?d')) = _ - ?e => assert (d' = e); [|nred; lra] end.
  apply Rsum_ext. intros k Hk. f_equal. f_equal.
  unfold ell_int. apply RInt_ext. intros x _.
  destruct (nth_error orders (S k)) as [p|] eqn:Ep; [|apply nth_error_None in Ep; lia].
  pose proof (good_at mp rs Hrs Hgood (S k) p Ep) as Hg. pose proof (good_nodup _ _ _ _ Hg) as Hnd.
  destruct Hg as (Hlr & _). destruct (HB (S k) ltac:(lia)) as [Hb1 Hb2].
  apply (interp_unique (nth (S k) rs [])); auto.
  - pose proof (length_lagrange_num (nth (S k) rs []) 0). nred. lia.
  - intros j Hj. rewrite (Hb2 j Hj). rewrite peval_lagrange_num, lagv_node by (auto; nred; lia).
    destruct (Nat.eqb_spec j 0); destruct (Nat.eqb_spec 0 j); try lia; reflexivity.
Qed.

(** ** variables and their bounds *)
Lemma xbounds_ok (b : list (ext R)) (x00 : option (list R)) : length b = o_nx o ->
  (forall x, x00 = Some x -> length x = o_nx o) ->
  exists l, xbounds mp b x00 = Ok l /\ length l = (o_nx o * NN)%nat /\
    forall s i, (s < o_nx o)%nat -> (i < NN)%nat -> nth (s * NN + i) l NaN =
      match x00, i with
      | Some x, O => Fin (nth s x 0 * nth s (o_scale_x o) 0)
      | _, _ => escale (N := Rnum) (nth s b NaN) (nth s (o_scale_x o) 0)
      end.
Proof.
  intros Hb Hx. unfold xbounds. rewrite npts. pose proof (sh_sx _ Hsh) as Hs. pose proof NN_pos as HN.
  match goal with |- context [forallb _ ?m] => set (rows := m) end.
  assert (Hlr : length rows = NN).
  { unfold rows. destruct x00 as [x|]; [|apply repeat_length]. destruct NN as [|m]; [lia|].
    cbn [repeat tl length]. rewrite repeat_length. reflexivity. }
  assert (Hnr : forall i, (i < NN)%nat -> nth i rows [] = match x00, i with
     | Some x, O => map Fin (map2 Rmult x (o_scale_x o))
     | _, _ => map2 (escale (N := Rnum)) b (o_scale_x o) end).
  { intros i Hi. unfold rows. destruct x00 as [x|].
    - destruct NN as [|m]; [lia|]. destruct i as [|i]; [reflexivity|]. cbn [repeat tl nth]. apply nth_repeat_in. lia.
    - rewrite nth_repeat_in by auto. destruct i; reflexivity. }
  assert (Hlen : forall i, (i < NN)%nat -> length (nth i rows []) = o_nx o).
  { intros i Hi. rewrite Hnr by auto. destruct x00 as [x|]; [destruct i|].
    - rewrite map_length, length_map2. specialize (Hx x eq_refl). nred. lia.
    - rewrite length_map2. nred. lia.
    - rewrite length_map2. nred. lia. }
  replace (forallb _ rows) with true.
  2:{ symmetry. apply forallb_forall. intros r Hr. destruct (In_nth rows r [] Hr) as (i & Hi & <-).
      apply Nat.eqb_eq. apply Hlen. nred. lia. }
  eexists. split; [reflexivity|]. split.
  - rewrite (length_flat_map_seq _ NN); [reflexivity|]. intros. rewrite map_length. exact Hlr.
  - intros s i H1 H2. etransitivity; [apply (nth_flat_map_seq _ NN (o_nx o)); auto; intros; rewrite map_length; exact Hlr|].
    etransitivity; [apply (nth_map_in (fun r => nth s r NaN) rows i NaN []); nred; lia|]. cbn beta.
    nred. rewrite (Hnr i H2). destruct x00 as [x|]; [destruct i as [|i]|].
    + specialize (Hx x eq_refl). etransitivity; [apply (nth_map_in Fin _ s NaN 0)|]; nred.
      * rewrite length_map2. lia.
      * rewrite (nth_map2 Rmult x (o_scale_x o) s 0 0 0) by lia. reflexivity.
    + apply (nth_map2 (escale (N := Rnum)) b (o_scale_x o) s NaN NaN 0); nred; lia.
    + etransitivity; [apply (nth_map2 (escale (N := Rnum)) b (o_scale_x o) s NaN NaN 0); nred; lia|]. destruct i; reflexivity.
Qed.

Lemma sat_single (x : R) lo hi : sat (Con (N := Rnum) [x] [lo] [hi]) <-> within lo hi x.
Proof.
  unfold sat. cbn. split; [intros H; apply (H 0%nat); lia|]. intros H [|i] Hi; [exact H|lia].
Qed.
Lemma one_row {T} (m : list (list T)) : shaped m (o_nph o) 1 -> exists b, at_ m ph = Ok [b] /\ nth ph m [] = [b].
Proof.
  intros H. destruct (row_len m 1 H) as (r & E & Hl). destruct r as [|b [|]]; try discriminate.
  exists b. split; [exact E|]. apply (at_inv_nth _ _ _ _ E).
Qed.
Lemma a_row {T} (m : list (list T)) c : shaped m (o_nph o) c -> exists b, at_ m ph = Ok b /\ nth ph m [] = b /\ length b = c.
Proof. intros H. destruct (row_len m c H) as (r & E & Hl). exists r. split; [exact E|]. split; [apply (at_inv_nth _ _ _ _ E)|exact Hl]. Qed.

Lemma nlp_variables_ok :
  exists Z, nlp_variables mp ph v = Ok Z /\ balanced Z /\
    c_g Z = mvec (v_X v) ++ mvec (v_U v) ++ [v_t0 v; v_tf v] ++ v_A v /\
    (sat Z <-> bounds_ok mp ph y).
Proof.
  unfold nlp_variables.
  assert (Hx00 : exists x00, (if Nat.eqb ph 0 then bind (at_ (o_x00 o) 0) (fun x => Ok (Some x)) else Ok None) = Ok x00 /\
    (forall x, x00 = Some x -> length x = o_nx o) /\
    x00 = if Nat.eqb ph 0 then Some (nth 0 (o_x00 o) []) else None).
  { destruct (Nat.eqb_spec ph 0) as [E|E].
    - destruct (a_row (o_x00 o) _ (sh_x00 _ Hsh)) as (r & Er & En & Hl). rewrite E in *. rewrite Er. cbn [bind].
      eexists. split; [reflexivity|]. split; [intros x Ex; inversion Ex; subst; auto|]. nred. rewrite En. reflexivity.
    - eexists. split; [reflexivity|]. split; [intros; discriminate|reflexivity]. }
  destruct Hx00 as (x00 & Ex00 & Hx00l & Hx00). nred. rewrite Ex00. cbn [bind].
  destruct (a_row (o_lbx o) _ (sh_lbx _ Hsh)) as (lbx & E1 & N1 & L1).
  destruct (a_row (o_ubx o) _ (sh_ubx _ Hsh)) as (ubx & E2 & N2 & L2).
  destruct (a_row (o_lbu o) _ (sh_lbu _ Hsh)) as (lbu & E3 & N3 & L3).
  destruct (a_row (o_ubu o) _ (sh_ubu _ Hsh)) as (ubu & E4 & N4 & L4).
  destruct (one_row (o_lbt0 o) (sh_lbt0 _ Hsh)) as (lbt0 & E5 & N5).
  destruct (one_row (o_ubt0 o) (sh_ubt0 _ Hsh)) as (ubt0 & E6 & N6).
  destruct (one_row (o_lbtf o) (sh_lbtf _ Hsh)) as (lbtf & E7 & N7).
  destruct (one_row (o_ubtf o) (sh_ubtf _ Hsh)) as (ubtf & E8 & N8).
  destruct (a_row (o_lba o) _ (sh_lba _ Hsh)) as (lba & E9 & N9 & L9).
  destruct (a_row (o_uba o) _ (sh_uba _ Hsh)) as (uba & E10 & N10 & L10).
  destruct (xbounds_ok lbx x00 L1 Hx00l) as (xlo & EX1 & LX1 & NX1).
  destruct (xbounds_ok ubx x00 L2 Hx00l) as (xhi & EX2 & LX2 & NX2).
  nred. rewrite E1, E2. cbn [bind]. rewrite EX1, EX2. cbn [bind].
  rewrite E3, E4, E5, E6, E7, E8, E9, E10. cbn [bind map app].
  rewrite npts.
  assert (LX : length (mvec (v_X v)) = (o_nx o * NN)%nat) by (rewrite length_mvec, (rp_nrX _ _ _ Hrep), (rp_ncX _ _ _ Hrep); auto).
  assert (LU : length (mvec (v_U v)) = (o_nu o * NN)%nat) by (rewrite length_mvec, (rp_nrU _ _ _ Hrep), (rp_ncU _ _ _ Hrep); auto).
  destruct (sat_bound_block (mvec (v_U v)) lbu ubu (o_scale_u o) (o_nu o) NN LU L3 L4 (sh_su _ Hsh)) as [HbU HsU].
  set (A1 := Con (N := Rnum) (mvec (v_X v)) xlo xhi).
  set (A2 := Con (N := Rnum) (mvec (v_U v)) (bound_block (N := Rnum) lbu (o_scale_u o) NN) (bound_block (N := Rnum) ubu (o_scale_u o) NN)).
  set (A3 := Con (N := Rnum) [v_t0 v] [escale (N := Rnum) lbt0 (o_scale_t o)] [escale (N := Rnum) ubt0 (o_scale_t o)]).
  set (A4 := Con (N := Rnum) [v_tf v] [escale (N := Rnum) lbtf (o_scale_t o)] [escale (N := Rnum) ubtf (o_scale_t o)]).
  set (A5 := Con (N := Rnum) (v_A v) (map2 (escale (N := Rnum)) lba (o_scale_a o)) (map2 (escale (N := Rnum)) uba (o_scale_a o))).
  exists (con_app A1 (con_app A2 (con_app A3 (con_app A4 A5)))).
  split; [reflexivity|].
  assert (B1 : balanced A1) by (split; cbn [A1 c_g c_lo c_hi]; nred; lia).
  assert (B2 : balanced A2) by exact HbU.
  assert (B3 : balanced A3) by (split; reflexivity).
  assert (B4 : balanced A4) by (split; reflexivity).
  pose proof (rp_lenA _ _ _ Hrep) as LA. pose proof (sh_sa _ Hsh) as LSA.
  assert (B5 : balanced A5) by (split; cbn [A5 c_g c_lo c_hi]; rewrite length_map2; nred; lia).
  split; [repeat apply balanced_app; auto|]. split; [reflexivity|].
  rewrite !sat_app by auto. unfold bounds_ok, bnd. nred. rewrite N1, N2, N3, N4, N5, N6, N7, N8, N9, N10. cbn [nth].
  assert (S1 : sat A1 <-> forall i s, (i < NN)%nat -> (s < o_nx o)%nat ->
     if (Nat.eqb ph 0 && Nat.eqb i 0)%bool then y_x y i s = nth s (nth 0 (o_x00 o) []) 0
     else within (nth s lbx NaN) (nth s ubx NaN) (y_x y i s)).
  { assert (Hone : forall i s, (i < NN)%nat -> (s < o_nx o)%nat ->
      (within (nth (s * NN + i) xlo NaN) (nth (s * NN + i) xhi NaN) (nth (s * NN + i) (mvec (v_X v)) 0) <->
       if (Nat.eqb ph 0 && Nat.eqb i 0)%bool then y_x y i s = nth s (nth 0 (o_x00 o) []) 0
       else within (nth s lbx NaN) (nth s ubx NaN) (y_x y i s))).
    { intros i s Hi Hs. rewrite NX1, NX2 by auto.
      rewrite (nth_mvec_n (v_X v) NN i s (rp_nrX _ _ _ Hrep) Hi) by (rewrite (rp_ncX _ _ _ Hrep); auto).
      rewrite (rp_X _ _ _ Hrep) by auto. pose proof (sx_pos s Hs) as Hp. nred. rewrite Hx00.
      destruct (Nat.eqb ph 0); cbn [andb].
      - destruct i as [|i]; cbn [Nat.eqb]; [apply within_fin; auto|apply within_scale; auto].
      - apply within_scale; auto. }
    unfold sat, A1. cbn [c_g c_lo c_hi]. nred. rewrite LX. split.
    - intros H i s Hi Hs. apply (Hone i s Hi Hs). apply H. nia.
    - intros H i Hi. destruct (divide_index NN (o_nx o) i Hi) as (s & j & -> & Hs & Hj). apply (Hone j s Hj Hs). exact (H j s Hj Hs). }
  assert (S2 : sat A2 <-> forall i c, (i < NN)%nat -> (c < o_nu o)%nat ->
     within (nth c lbu NaN) (nth c ubu NaN) (y_u y i c)).
  { unfold A2. rewrite HsU. 
    assert (Hone : forall i s, (i < NN)%nat -> (s < o_nu o)%nat ->
      (within (escale (N := Rnum) (nth s lbu NaN) (nth s (o_scale_u o) 0)) (escale (N := Rnum) (nth s ubu NaN) (nth s (o_scale_u o) 0)) 
        (nth (s * NN + i) (mvec (v_U v)) 0) <-> within (nth s lbu NaN) (nth s ubu NaN) (y_u y i s))).
    { intros i s Hi Hs. 
      rewrite (nth_mvec_n (v_U v) NN i s (rp_nrU _ _ _ Hrep) Hi) by (rewrite (rp_ncU _ _ _ Hrep); auto).
      rewrite (rp_U _ _ _ Hrep) by auto. apply within_scale. apply su_pos; auto. }
    split; intros H; intros; apply Hone; auto. }
  assert (S3 : sat A3 <-> within lbt0 ubt0 (y_t0 y)).
  { unfold A3. rewrite sat_single, (rp_t0 _ _ _ Hrep). apply within_scale. apply st_pos. }
  assert (S4 : sat A4 <-> within lbtf ubtf (y_tf y)).
  { unfold A4. rewrite sat_single, (rp_tf _ _ _ Hrep). apply within_scale. apply st_pos. }
  assert (S5 : sat A5 <-> forall i, (i < o_na o)%nat -> within (nth i lba NaN) (nth i uba NaN) (y_a y i)).
  { assert (Hone : forall i, (i < o_na o)%nat ->
      (within (nth i (map2 (escale (N := Rnum)) lba (o_scale_a o)) NaN) (nth i (map2 (escale (N := Rnum)) uba (o_scale_a o)) NaN) (nth i (v_A v) 0) <->
       within (nth i lba NaN) (nth i uba NaN) (y_a y i))).
    { intros i Hi. rewrite (nth_map2 (escale (N := Rnum)) lba (o_scale_a o) i NaN NaN 0) by (nred; lia).
      rewrite (nth_map2 (escale (N := Rnum)) uba (o_scale_a o) i NaN NaN 0) by (nred; lia).
      rewrite (rp_A _ _ _ Hrep) by auto. apply within_scale. apply sa_pos; auto. }
    unfold sat, A5. cbn [c_g c_lo c_hi]. nred. rewrite LA. split; intros H i Hi; apply (Hone i Hi); exact (H i Hi). }
  rewrite S1, S2, S3, S4, S5. tauto.
Qed.

(** ** the whole phase *)
Lemma discretize_phase_ok ap : ap_taus ap = rs -> ap_D ap = D -> ap_W ap = W ->
  exists G J, discretize_phase mp ap sw ph v = Ok (G, J) /\ balanced G /\
    length (c_g G) = phase_rows mp npath nterm ph /\
    (sat G <-> phase_ok mp rs w ph y) /\
    forall C B, cost_interp mp rs w ph y C -> start_basis mp rs B ->
      J = phase_cost mp w ph y C - start_cost mp rs w ph y B.
Proof.
  intros H1 H2 H3. unfold discretize_phase.
  destruct (discretize_nodes_ok ap H1) as (d & Ed & Hd). nred. rewrite Ed. cbn [bind].
  destruct (con_dynamics_ok ap d H2 Hd) as (F & EF & BF & LF & SF). rewrite EF. cbn [bind].
  destruct (con_path_ok d Hd) as (C & EC & BC & LC & SC). nred. rewrite EC. cbn [bind].
  destruct con_terminal_ok as (TC & ET & BT & LT & ST). rewrite ET. cbn [bind].
  destruct (con_slope_ok ap H2) as (DU & EDU & BDU & LDU & SDU). rewrite EDU. cbn [bind].
  destruct con_midu_ok as (mU & EmU & BmU & LmU & SmU). rewrite EmU. cbn [bind].
  destruct con_ducont_ok as (dU & EdU & BdU & LdU & SdU). rewrite EdU. cbn [bind].
  rewrite H3. pose proof (ds_q_len _ Hd) as Hlq. nred. rewrite HlW, Hlq, Nat.eqb_refl. cbn [bind].
  eexists _, _. split; [reflexivity|]. split; [|split; [|split]].
  - apply balanced_concat. intros c [<-|[<-|[<-|[<-|[<-|[<-|[]]]]]]]; auto.
  - rewrite length_con_concat. cbn [map fold_right]. unfold phase_rows. nred. rewrite LF, LC, LDU, LmU, LdU, LT. lia.
  - unfold con_concat. cbn [fold_right]. rewrite !sat_app by auto.
    rewrite SF, SC, SDU, SmU, SdU, ST. unfold phase_ok. pose proof sat_nil. tauto.
  - intros CC B HC HB. pose proof (quad_cost d CC B Hd HC HB) as E. nred. rewrite E.
    unfold phase_cost. ring.
Qed.

End Phase.
