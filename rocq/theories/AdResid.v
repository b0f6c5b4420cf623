(** Residuals of class mpopt_adaptive: the same as those of class mpopt for the same trajectories
    and widths (proofs). *)
From Coq Require Import String.
From Coq Require Import Reals.
From Coquelicot Require Import Coquelicot.
From Coq Require Import List Lia Lra Bool Arith.
From Verif Require Import Num PyList Mat Poly Roots Colloc Ocp Transcribe Solve Hadapt Resid Adaptive Post
  Spec SpecOcp SpecSolve SpecHadapt SpecResid SpecAdapt SpecPost
  NumR ListR PolyR CollocR CompR CollocThm MeshR BlockR DiscR NlpR NlpThm NlpMain GridR ResidR ResidThm ResidMain
  ScaleR AdaptR AdaptPh AdaptThm AdaptMain RefineThm PostMain PostTotal.
Import ListNotations.
Open Scope R_scope.
Open Scope list_scope.

(** ** functions of trajectories do not look outside matrices *)
Definition traj_eq (a b : traj Rnum) : Prop :=
  mat_eq (tr_x a) (tr_x b) /\ mat_eq (tr_u a) (tr_u b) /\ tr_t a = tr_t b /\ tr_t0 a = tr_t0 b /\ tr_tf a = tr_tf b /\ tr_a a = tr_a b.
Definition rows_eq (A B : mat Rnum) : Prop := forall i, mrow A i = mrow B i.
Definition interp_eq (a b : interp (N := Rnum)) : Prop :=
  rows_eq (i_x a) (i_x b) /\ rows_eq (i_u a) (i_u b) /\ i_t a = i_t b /\ i_a a = i_a b /\ rows_eq (i_dx a) (i_dx b) /\
  rows_eq (i_du a) (i_du b) /\ i_taus a = i_taus b /\ i_t0 a = i_t0 b /\ i_tf a = i_tf b.

Lemma mmul_rows (M A B : mat Rnum) : mat_eq A B -> (nc M <= nr A)%nat -> rows_eq (mmul M A) (mmul M B).
Proof.
  intros (H1 & H2 & H3) Hn i. unfold mrow. cbn [mmul nc mget]. rewrite <- H2. apply map_ext_in. intros s Hs. apply in_seq in Hs.
  rewrite !sumf_R. apply Rsum_ext. intros j Hj. nred. rewrite H3 by lia. reflexivity.
Qed.
Lemma mat_row (A B : mat Rnum) i : mat_eq A B -> (i < nr A)%nat -> mrow A i = mrow B i.
Proof. intros (H1 & H2 & H3) Hi. unfold mrow. rewrite <- H2. apply map_ext_in. intros s Hs. apply in_seq in Hs. apply H3; lia. Qed.
Lemma foldM_nc {A} (f : mat Rnum -> A -> res (mat Rnum)) l : forall M M', (forall M x M', f M x = Ok M' -> nc M' = nc M) ->
  foldM f l M = Ok M' -> nc M' = nc M.
Proof.
  induction l as [|x l IH]; intros M M' H E; cbn [foldM] in E; [injection E as <-; reflexivity|].
  destruct (f M x) as [M1|] eqn:E1; [|discriminate E]. cbn [bind] in E. rewrite (IH _ _ H E). eapply H; eauto.
Qed.
Lemma assemble_nc taus orders Cs (M : mat Rnum) : assemble_interp taus orders Cs = Ok M -> nc M = (nsum orders + 1)%nat.
Proof.
  unfold assemble_interp. intros E. apply foldM_nc in E; [exact E|]. intros M0 [i [q C]] M1 H.
  destruct (Nat.eqb _ 0); [injection H as <-; reflexivity|]. unfold set_block in H. destruct (_ && _); [|discriminate H]. injection H as <-. reflexivity.
Qed.
Lemma comp_interp_nc cf taus orders (M : mat Rnum) : comp_interp cf taus orders = Ok M -> nc M = (nsum orders + 1)%nat.
Proof. unfold comp_interp. destruct (mapM _ _); [|discriminate]. cbn [bind]. apply assemble_nc. Qed.
Lemma comp_interpD_nc cf taus orders d (M : mat Rnum) : comp_interpD cf taus orders d = Ok M -> nc M = (nsum orders + 1)%nat.
Proof. unfold comp_interpD. destruct (mapM _ _); [|discriminate]. cbn [bind]. apply assemble_nc. Qed.

Section Same.
Variables (rc : rcfg) (mp : mpo Rnum) (tr1 tr2 : nat -> list R -> list R -> res (traj Rnum)) (sw z1 z2 : list R).
Local Notation o := (mp_ocp mp).
Local Notation orders := (mp_orders mp).
Hypothesis Hmp : mpo_ok mp.
Hypothesis Htr : forall ph, (ph < o_nph o)%nat -> exists a b, tr1 ph z1 sw = Ok a /\ tr2 ph z2 sw = Ok b /\ traj_eq a b /\
  nr (tr_x a) = total_nodes orders /\ nr (tr_u a) = total_nodes orders.

Definition res_rel {A} (P : A -> A -> Prop) (a b : res A) : Prop :=
  match a, b with Ok x, Ok y => P x y | Raise e, Raise f => e = f | _, _ => False end.

Lemma nsum_total : (nsum orders + 1)%nat = total_nodes orders.
Proof. rewrite <- npoints_total. unfold npoints. lia. Qed.

Lemma interp_same ph nodes : (ph < o_nph o)%nat ->
  res_rel interp_eq (interpolate_phase_by rc mp tr1 sw z1 ph nodes) (interpolate_phase_by rc mp tr2 sw z2 ph nodes).
Proof.
  intros Hph. destruct (Htr ph Hph) as (a & b & E1 & E2 & (H1 & H2 & H3 & H4 & H5 & H6) & Hx & Hu). unfold interpolate_phase_by. nred. rewrite E1, E2. cbn [bind].
  match goal with |- res_rel _ (bind ?m _) _ => destruct m as [[taus|]|e]; cbn [bind]; [|reflexivity|reflexivity] end.
  rewrite H3. destruct (time_grid _ _ _ _ _) as [ti|]; cbn [bind]; [|reflexivity].
  destruct (comp_interp _ _ _) as [I|] eqn:EI; cbn [bind]; [|reflexivity].
  destruct (comp_interpD _ _ _ _) as [D|] eqn:ED; cbn [bind]; [|reflexivity].
  apply comp_interp_nc in EI. apply comp_interpD_nc in ED. rewrite nsum_total in EI, ED.
  unfold interp_eq; cbn [res_rel i_x i_u i_t i_a i_dx i_du i_taus i_t0 i_tf].
  repeat split; auto; apply mmul_rows; auto; nred; lia.
Qed.
Lemma seg_dyn_same ph a b start n : interp_eq a b -> seg_dynamics mp ph a start n = seg_dynamics mp ph b start n.
Proof.
  intros (H1 & H2 & H3 & H4 & _). unfold seg_dynamics. apply mapM_ext. intros i _. rewrite H3, H4, (H1 (start + i)%nat), (H2 (start + i)%nat). reflexivity.
Qed.
Lemma factor_same ph a b k : interp_eq a b -> seg_factor mp sw ph a k = seg_factor mp sw ph b k.
Proof. intros (_ & _ & _ & _ & _ & _ & _ & H1 & H2). unfold seg_factor. rewrite H1, H2. reflexivity. Qed.
Lemma dyn_seg_same ph a b k : interp_eq a b -> dyn_residual_seg mp sw ph a k = dyn_residual_seg mp sw ph b k.
Proof.
  intros H. unfold dyn_residual_seg. rewrite (factor_same ph a b k H).
  destruct H as (H1 & H2 & H3 & H4 & H5 & H6 & H7 & H8 & H9) eqn:EH. clear EH. rewrite H7. destruct (at_ (i_taus b) k) as [taus|]; [|reflexivity]. cbn [bind].
  rewrite (seg_dyn_same ph a b) by (repeat split; auto). destruct (seg_dynamics _ _ _ _ _) as [fs|]; [|reflexivity]. cbn [bind].
  destruct (Nat.eqb _ 0); [reflexivity|]. destruct (seg_factor _ _ _ _ _) as [h|]; [|reflexivity]. cbn [bind]. rewrite H3. do 2 f_equal.
  f_equal. apply map_ext. intros [i Fi]. rewrite H5. reflexivity.
Qed.
Lemma dyn_phase_same ph nodes : (ph < o_nph o)%nat -> dyn_residuals_phase_by rc mp tr1 sw z1 ph nodes = dyn_residuals_phase_by rc mp tr2 sw z2 ph nodes.
Proof.
  intros Hph. unfold dyn_residuals_phase_by. pose proof (interp_same ph nodes Hph) as H.
  destruct (interpolate_phase_by rc mp tr1 sw z1 ph nodes) as [a|e], (interpolate_phase_by rc mp tr2 sw z2 ph nodes) as [b|f]; cbn [res_rel] in H; try contradiction; [|now subst].
  cbn [bind]. apply mapM_ext. intros k _. apply dyn_seg_same. exact H.
Qed.
Lemma residuals_same nodes gt rel : dynamics_residuals_by rc mp tr1 sw z1 nodes gt rel = dynamics_residuals_by rc mp tr2 sw z2 nodes gt rel.
Proof.
  unfold dynamics_residuals_by. f_equal.
  assert (H : forall l st, (forall ph, In ph l -> (ph < o_nph o)%nat) ->
    foldM (residuals_step_by rc mp tr1 sw z1 nodes rel) l st = foldM (residuals_step_by rc mp tr2 sw z2 nodes rel) l st).
  { induction l as [|ph l IH]; intros [[g ts] rs] Hl; [reflexivity|]. cbn [foldM].
    assert (Es : residuals_step_by rc mp tr1 sw z1 nodes rel (g, ts, rs) ph = residuals_step_by rc mp tr2 sw z2 nodes rel (g, ts, rs) ph).
    { unfold residuals_step_by. match goal with |- bind ?m _ = _ => destruct m as [[g2 tg]|]; [|reflexivity] end. cbn [bind].
      rewrite dyn_phase_same by (apply Hl; cbn; auto). reflexivity. }
    rewrite Es. clear Es. destruct (residuals_step_by rc mp tr2 sw z2 nodes rel (g, ts, rs) ph) as [st|]; [|reflexivity]. cbn [bind]. apply IH. intros; apply Hl; cbn; auto. }
  apply H. intros ph Hph. apply in_seq in Hph. lia.
Qed.
Lemma integrate_same ph nodes : (ph < o_nph o)%nat -> integrate_phase_by rc mp tr1 sw z1 ph nodes = integrate_phase_by rc mp tr2 sw z2 ph nodes.
Proof.
  intros Hph. unfold integrate_phase_by. destruct (Htr ph Hph) as (a & b & E1 & E2 & (Hx & _) & Hr & _). nred. rewrite E1, E2. cbn [bind].
  match goal with |- bind ?m _ = _ => destruct m as [tg|]; [|reflexivity] end. cbn [bind].
  pose proof (interp_same ph tg Hph) as H.
  destruct (interpolate_phase_by rc mp tr1 sw z1 ph tg) as [ia|e], (interpolate_phase_by rc mp tr2 sw z2 ph tg) as [ib|f]; cbn [res_rel] in H; try contradiction; [|now subst].
  cbn [bind]. apply mapM_ext. intros k Hk. apply in_seq in Hk. unfold integrate_seg. rewrite (factor_same ph ia ib k H).
  destruct H as (H1 & H2 & H3 & H4 & H5 & H6 & H7 & H8 & H9) eqn:EH. clear EH. rewrite H7. destruct (at_ (i_taus ib) k) as [taus|]; [|reflexivity]. cbn [bind].
  destruct (seg_factor _ _ _ _ _) as [h|]; [|reflexivity]. cbn [bind].
  rewrite (seg_dyn_same ph ia ib) by (repeat split; auto). destruct (seg_dynamics _ _ _ _ _) as [fs|]; [|reflexivity]. cbn [bind].
  assert (Es : mrow (tr_x a) (nsum (firstn k orders)) = mrow (tr_x b) (nsum (firstn k orders))).
  { apply mat_row; [exact Hx|]. nred. rewrite Hr. unfold total_nodes. pose proof (offset_mono orders k (length orders) ltac:(rewrite (mo_len _ Hmp); lia)) as Hm. rewrite nsum_firstn. lia. }
  nred. rewrite Es. match goal with |- bind ?m _ = _ => destruct m as [xs|]; [|reflexivity] end. cbn [bind].
  destruct (Nat.eqb _ 0); [reflexivity|]. rewrite H3. do 2 f_equal. f_equal.
  - apply map_ext. intros i. apply H2.
  - apply map_ext. intros [i xi]. rewrite H1. reflexivity.
Qed.
Lemma states_same phases nodes rel : (forall l, phases = Some l -> forall ph, In ph l -> (ph < o_nph o)%nat) ->
  states_residuals_by rc mp tr1 sw z1 phases nodes rel = states_residuals_by rc mp tr2 sw z2 phases nodes rel.
Proof.
  intros Hl. unfold states_residuals_by. apply mapM_ext. intros ph Hph.
  assert (Hlt : (ph < o_nph o)%nat) by (destruct phases as [l|]; [exact (Hl l eq_refl ph Hph)|apply in_seq in Hph; lia]).
  unfold states_residuals_phase_by. match goal with |- bind (bind ?m _) _ = _ => destruct m as [tg|]; [|reflexivity] end. cbn [bind].
  rewrite integrate_same by exact Hlt. reflexivity.
Qed.
Lemma second_phase_same ph nodes : (ph < o_nph o)%nat -> second_derivative_phase_by rc mp tr1 sw z1 ph nodes = second_derivative_phase_by rc mp tr2 sw z2 ph nodes.
Proof.
  intros Hph. unfold second_derivative_phase_by. destruct (Htr ph Hph) as (a & b & E1 & E2 & (Hx & Hu & Ht & _) & Hrx & Hru). nred. rewrite E1, E2. cbn [bind].
  match goal with |- bind ?m _ = _ => destruct m as [[taus|]|]; [| |reflexivity] end; cbn [bind]; [|reflexivity].
  rewrite Ht. destruct (time_grid _ _ _ _ _) as [ti|]; cbn [bind]; [|reflexivity].
  destruct (comp_interpD _ _ _ _) as [D|] eqn:ED; cbn [bind]; [|reflexivity]. apply comp_interpD_nc in ED. rewrite nsum_total in ED.
  apply mapM_ext. intros k _. destruct (at_ taus k) as [l|]; [|reflexivity]. cbn [bind]. destruct (Nat.eqb _ 0); [reflexivity|]. do 2 f_equal. f_equal.
  - apply map_ext. intros i. apply mmul_rows; auto. nred. lia.
  - apply map_ext. intros i. apply mmul_rows; auto. nred. lia.
Qed.
Lemma second_same gt nodes : second_derivative_by rc mp tr1 sw z1 gt nodes = second_derivative_by rc mp tr2 sw z2 gt nodes.
Proof.
  unfold second_derivative_by. apply mapM_ext. intros ph Hph. apply in_seq in Hph.
  match goal with |- bind ?m _ = _ => destruct m as [tg|]; [|reflexivity] end. cbn [bind]. apply second_phase_same. lia.
Qed.
Lemma values_same rx rdx : residual_values rc mp tr1 sw z1 rx rdx = residual_values rc mp tr2 sw z2 rx rdx.
Proof. unfold residual_values. rewrite residuals_same, states_same; [reflexivity|]. intros l H. discriminate H. Qed.
End Same.

(** ** trajectories of a solution with widths *)
Definition stripped (mp : mpo Rnum) (z z0 p : list R) : Prop :=
  length z0 = (o_nph (mp_ocp mp) * nvars mp)%nat /\ length p = (o_nph (mp_ocp mp) * mp_nseg mp)%nat /\
  forall ph, (ph < o_nph (mp_ocp mp))%nat -> same_traj mp (ad_traj mp z ph) (user_traj mp z0 ph) /\
    forall k, (k < mp_nseg mp)%nat -> ad_width mp z ph k = width mp p ph k.

Section Own.
Variables (ac : acfg Rnum) (mp : mpo Rnum) (npath nterm : nat -> option nat) (z : list R).
Local Notation o := (mp_ocp mp).
Local Notation orders := (mp_orders mp).
Local Notation cf := (mp_cf mp).
Hypothesis Hin : ad_input_ok ac mp npath nterm z.
Variables (z0 p : list R).
Hypothesis Hst : stripped mp z z0 p.
Let Hmp : mpo_ok mp := ai_mpo _ _ _ _ _ Hin.

Lemma base_in : input_ok mp npath nterm z0 p.
Proof. pose proof Hin as [H1 H2 H3 _ _ _ _]. pose proof Hst as (H4 & H5 & _). now constructor. Qed.

Lemma own_same ph sw : (ph < o_nph o)%nat -> exists a b, own_trajectories mp ph z sw = Ok a /\ trajectories mp ph z0 p = Ok b /\ traj_eq a b /\
  nr (tr_x a) = total_nodes orders /\ nr (tr_u a) = total_nodes orders.
Proof.
  intros Hph. pose proof base_in as Hin0. pose proof Hin as [_ Hok Hsc Hz _ _ _]. pose proof Hst as (Hz0 & Hp & Hs). destruct (Hs ph Hph) as ((S1 & S2 & S3 & S4 & S5) & S6).
  assert (R1 : rep mp (fst (a_unpack mp z ph)) (ad_traj mp z ph)) by (eapply a_unpack_rep; eauto).
  assert (R2 : rep mp (unpack mp z0 ph) (user_traj mp z0 ph)) by (eapply unpack_rep; eauto).
  destruct (trajectories_ok mp npath nterm z0 p ph Hin0 Hph) as (rs & b & _ & Eb & _).
  assert (Ew : snd (a_unpack mp z ph) = sw_of mp p ph).
  { pose proof (sw_len ac mp npath nterm z Hin ph Hph) as Ls. pose proof (mo_len _ Hmp) as Hl.
    assert (Hb : (ph * mp_nseg mp + mp_nseg mp <= length p)%nat) by (rewrite Hp; nia).
    apply (list_eq_nth _ _ 0).
    - nred. rewrite Ls. unfold sw_of, slice. rewrite firstn_length, skipn_length. nred. nia.
    - intros k Hk. nred. rewrite Ls in Hk. pose proof (sw_at ac mp npath nterm z Hin ph Hph k Hk) as E. unfold at_ in E.
      destruct (nth_error (snd (a_unpack mp z ph)) k) as [v|] eqn:En; [|discriminate E]. injection E as ->.
      etransitivity; [exact (nth_error_nth _ _ 0 En)|]. rewrite S6 by lia. unfold sw_of, slice, width. rewrite nth_firstn_lt by (nred; nia). rewrite nth_skipn. reflexivity. }
  unfold own_trajectories, a_trajectories, trajectories in *. destruct (a_unpack mp z ph) as [v sv]. cbn [fst snd] in *. subst sv.
  assert (T0 : v_t0 v = v_t0 (unpack mp z0 ph)).
  { pose proof (rp_t0 _ _ _ R1) as A. pose proof (rp_t0 _ _ _ R2) as B. nred. rewrite A, B, S3. reflexivity. }
  assert (Tf : v_tf v = v_tf (unpack mp z0 ph)).
  { pose proof (rp_tf _ _ _ R1) as A. pose proof (rp_tf _ _ _ R2) as B. nred. rewrite A, B, S4. reflexivity. }
  rewrite T0, Tf. destruct (compute_numerical_approximation mp) as [ap|]; [|discriminate Eb]. cbn [bind] in *.
  destruct (mesh _ _ _ _ _) as [nodes|]; [|discriminate Eb]. cbn [bind] in *. injection Eb as <-.
  eexists _, _. split; [reflexivity|]. split; [reflexivity|]. cbn [tr_x tr_u]. split; [|split; [apply (rp_nrX _ _ _ R1)|apply (rp_nrU _ _ _ R1)]].
  unfold traj_eq. cbn [tr_x tr_u tr_t tr_t0 tr_tf tr_a]. repeat split; auto.
  - nred. rewrite (rp_nrX _ _ _ R1), (rp_nrX _ _ _ R2). reflexivity.
  - nred. rewrite (rp_ncX _ _ _ R1), (rp_ncX _ _ _ R2). reflexivity.
  - intros i s Hi Hs'. pose proof (rp_nrX _ _ _ R1) as A. pose proof (rp_ncX _ _ _ R1) as B. nred. rewrite A in Hi. rewrite B in Hs'.
    etransitivity; [apply (rp_X _ _ _ R1); auto|]. etransitivity; [|symmetry; apply (rp_X _ _ _ R2); auto]. f_equal. auto.
  - nred. rewrite (rp_nrU _ _ _ R1), (rp_nrU _ _ _ R2). reflexivity.
  - nred. rewrite (rp_ncU _ _ _ R1), (rp_ncU _ _ _ R2). reflexivity.
  - intros i s Hi Hs'. pose proof (rp_nrU _ _ _ R1) as A. pose proof (rp_ncU _ _ _ R1) as B. nred. rewrite A in Hi. rewrite B in Hs'.
    etransitivity; [apply (rp_U _ _ _ R1); auto|]. etransitivity; [|symmetry; apply (rp_U _ _ _ R2); auto]. f_equal. auto.
  - pose proof (rp_lenA _ _ _ R1) as A. pose proof (rp_lenA _ _ _ R2) as B. apply (list_eq_nth _ _ 0); [nred; congruence|]. intros i Hi. nred. rewrite A in Hi.
    etransitivity; [apply (rp_A _ _ _ R1); auto|]. etransitivity; [|symmetry; apply (rp_A _ _ _ R2); auto]. f_equal. auto.
Qed.

Theorem own_residuals rc nodes gt rel : a_dynamics_residuals rc mp p z nodes gt rel = dynamics_residuals rc mp p z0 nodes gt rel.
Proof. apply residuals_same. intros ph Hph. exact (own_same ph p Hph). Qed.
Theorem own_states rc phases nodes rel : (forall l ph, phases = Some l -> In ph l -> (ph < o_nph o)%nat) ->
  a_states_residuals rc mp p z phases nodes rel = states_residuals rc mp p z0 phases nodes rel.
Proof. intros H. apply states_same; [exact Hmp|intros ph Hph; exact (own_same ph p Hph)|]. intros l E ph Hph. eapply H; eauto. Qed.
Theorem own_second rc gt nodes : a_second_derivative rc mp p z gt nodes = second_derivative rc mp p z0 gt nodes.
Proof. apply second_same. intros ph Hph. exact (own_same ph p Hph). Qed.
Theorem own_values rc rx rdx : residual_values rc mp (own_trajectories mp) p z rx rdx = residual_values rc mp (trajectories mp) p z0 rx rdx.
Proof. apply values_same; [exact Hmp|]. intros ph Hph. exact (own_same ph p Hph). Qed.

(** *** the same vocabulary on both sides *)
Section Move.
Variables (rs : list (list R)) (ph : nat).
Hypothesis Hlen : forall k q, nth_error orders k = Some q -> length (nth k rs []) = S q.
Hypothesis Hph : (ph < o_nph o)%nat.
Local Notation y := (ad_traj mp z ph).
Local Notation w := (ad_width mp z ph).
Local Notation y0 := (user_traj mp z0 ph).
Local Notation w0 := (width mp p ph).
Lemma same_y : same_traj mp y y0.
Proof. pose proof Hst as (_ & _ & H). apply (H ph Hph). Qed.
Lemma same_w k : (k < length orders)%nat -> w k = w0 k.
Proof. pose proof Hst as (_ & _ & H). intros Hk. apply (H ph Hph). rewrite <- (mo_len _ Hmp). exact Hk. Qed.
Lemma polys_move k cx cu : (k < length orders)%nat -> seg_polys mp rs y k cx cu <-> seg_polys mp rs y0 k cx cu.
Proof.
  intros Hk. pose proof same_y as Hy. pose proof (same_sym mp _ _ Hy) as Hy'. destruct Hy as (A & B & _). destruct Hy' as (A' & B' & _). split; intros [H1 H2]; split; intros s Hs.
  - apply (seg_interp_eq mp rs Hlen k (fun i => y_x y i s)); auto.
  - apply (seg_interp_eq mp rs Hlen k (fun i => y_u y i s)); auto.
  - apply (seg_interp_eq mp rs Hlen k (fun i => y_x y0 i s)); auto.
  - apply (seg_interp_eq mp rs Hlen k (fun i => y_u y0 i s)); auto.
Qed.
Lemma time_move k tau : (k < length orders)%nat -> seg_time cf w y k tau = seg_time cf w0 y0 k tau.
Proof. intros Hk. rewrite (seg_time_w mp w w0 y same_w k tau Hk). apply seg_time_eq. exact same_y. Qed.
Lemma h_move k : (k < length orders)%nat -> seg_h cf w y k = seg_h cf w0 y0 k.
Proof. intros Hk. rewrite (seg_h_w mp w w0 y same_w k Hk). apply seg_h_eq. exact same_y. Qed.
Lemma along_move cx cu tau t : dyn_along o ph y cx cu tau t = dyn_along o ph y0 cx cu tau t.
Proof. unfold dyn_along. rewrite (a_of_eq mp y y0 same_y). reflexivity. Qed.
Lemma defect_move k cx cu s tau : (k < length orders)%nat -> defect mp w ph y k cx cu s tau = defect mp w0 ph y0 k cx cu s tau.
Proof. intros Hk. unfold defect, rate. rewrite (h_move k Hk), (time_move k tau Hk), along_move. reflexivity. Qed.
Lemma interp_move k cx cu cq pts : (k < length orders)%nat -> dyn_interp mp w ph y k cx cu cq pts <-> dyn_interp mp w0 ph y0 k cx cu cq pts.
Proof.
  intros Hk. unfold dyn_interp. split; intros H s Hs; destruct (H s Hs) as [H1 H2]; (split; [exact H1|]); intros i Hi; rewrite (H2 i Hi), (time_move k _ Hk), along_move; reflexivity.
Qed.
Lemma integrated_move k cq s tau : (k < length orders)%nat -> (s < o_nx o)%nat -> integrated mp w y k cq s tau = integrated mp w0 y0 k cq s tau.
Proof.
  intros Hk Hs. unfold integrated. rewrite (h_move k Hk). f_equal. destruct same_y as (A & _). apply A; [|exact Hs].
  unfold total_nodes. pose proof (offset_mono orders k (length orders) ltac:(lia)). lia.
Qed.
End Move.
Lemma rows_eq_in f g pts : (forall s tau, (s < o_nx o)%nat -> f s tau = g s tau) -> state_rows mp f pts = state_rows mp g pts.
Proof. intros H. unfold state_rows. apply map_ext. intros tau. apply map_ext_in. intros s Hs. apply in_seq in Hs. rewrite H by lia. reflexivity. Qed.

(** *** residuals of the dynamics, whatever the stored widths [sw] *)
Local Notation stored_defect sw ph k cx cu := (fun s tau => Derive (peval (cx s)) tau -
  (y_tf (ad_traj mp z ph) - y_t0 (ad_traj mp z ph)) * width mp sw ph k / (cf_tau1 cf - cf_tau0 cf) *
  nth s (dyn_along o ph (ad_traj mp z ph) cx cu tau (seg_time cf (ad_width mp z ph) (ad_traj mp z ph) k tau)) 0).
Lemma stored_phase rc sw ph taus : length sw = (o_nph o * mp_nseg mp)%nat -> (ph < o_nph o)%nat -> length taus = length orders ->
  exists rs segs, mapM (c_roots cf) orders = Ok rs /\ dyn_residuals_phase_by rc mp (own_trajectories mp) sw z ph (Some taus) = Ok segs /\
    length segs = length orders /\ (forall k, (k < length orders)%nat -> exists cx cu, seg_polys mp rs (ad_traj mp z ph) k cx cu) /\
    forall k pts cx cu, nth_error taus k = Some pts -> seg_polys mp rs (ad_traj mp z ph) k cx cu -> exists f,
      nth_error segs k = Some (match pts with
        | [] => Segres [] None None
        | _ => Segres (N := Rnum) (map (seg_time cf (ad_width mp z ph) (ad_traj mp z ph) k) pts) (Some (state_rows mp (stored_defect sw ph k cx cu) pts)) f
        end).
Proof.
  intros Lsw Hph Htl. pose proof base_in as Hin0.
  destruct (interp_spec rc mp npath nterm z0 p Hin0 ph Hph taus Htl) as (rs & ib & Ers & Hl & Hg & Eib & Hib).
  assert (Hlen : forall k q, nth_error orders k = Some q -> length (nth k rs []) = S q).
  { intros k q Hk. assert (Hkl : (k < length rs)%nat) by (rewrite Hl; apply nth_error_Some; congruence).
    destruct (Hg k q (nth k rs []) Hk (nth_error_nth' _ _ Hkl)) as (A & _). exact A. }
  pose proof (interp_same rc mp (own_trajectories mp) (trajectories mp) p z z0 (fun ph Hph => own_same ph p Hph) ph (Some taus) Hph) as HI.
  nred. rewrite Eib in HI. destruct (interpolate_phase_by rc mp (own_trajectories mp) p z ph (Some taus)) as [ia|] eqn:Eia; [|destruct HI]. cbn [res_rel] in HI.
  assert (Eis : interpolate_phase_by rc mp (own_trajectories mp) sw z ph (Some taus) = Ok ia) by exact Eia.
  pose proof (polys_exist mp z0 ph rs Hl Hg) as Hex.
  assert (Lp : length sw = length p) by (destruct Hst as (_ & H & _); nred; congruence).
  assert (Hval : forall k cx cu, (k < length orders)%nat -> seg_polys mp rs (user_traj mp z0 ph) k cx cu -> exists f,
    dyn_residual_seg mp sw ph ia k = Ok (if Nat.eqb (length (nth k taus [])) 0 then Segres [] None None
      else Segres (N := Rnum) (map (seg_time cf (ad_width mp z ph) (ad_traj mp z ph) k) (nth k taus [])) (Some (state_rows mp (stored_defect sw ph k cx cu) (nth k taus []))) f)).
  { intros k cx cu Hk Hc. eexists. rewrite (dyn_seg_same mp sw ph ia ib k HI).
    rewrite (dyn_residual_seg_gen mp npath nterm z0 p Hin0 ph Hph taus Htl rs ib Hib k cx cu Hk Hc sw Lp).
    destruct (Nat.eqb _ 0); [reflexivity|]. do 2 f_equal.
    - apply map_ext. intros tau. symmetry. apply time_move; auto.
    - f_equal. apply rows_eq_in. intros s tau Hs. rewrite (time_move ph Hph k tau Hk), (along_move ph Hph). destruct (same_y ph Hph) as (_ & _ & T0 & Tf & _). rewrite T0, Tf. reflexivity. }
  assert (Hseg : forall k, In k (seq 0 (mp_nseg mp)) -> exists r, dyn_residual_seg mp sw ph ia k = Ok r).
  { intros k Hk. apply in_seq in Hk. rewrite <- (mo_len _ Hmp) in Hk. destruct (Hex k ltac:(lia)) as (cx & cu & Hc). destruct (Hval k cx cu ltac:(lia) Hc) as (f & E). eauto. }
  destruct (mapM_total _ _ Hseg) as (segs & Esegs & Ls & Hn).
  exists rs, segs. split; [exact Ers|]. split; [unfold dyn_residuals_phase_by; nred; rewrite Eis; cbn [bind]; exact Esegs|].
  rewrite seq_length, <- (mo_len _ Hmp) in Ls. split; [exact Ls|]. split.
  { intros k Hk. destruct (Hex k Hk) as (cx & cu & Hc). exists cx, cu. now apply (polys_move rs ph Hlen Hph). }
  intros k pts cx cu Hp Hc. assert (Hk : (k < length orders)%nat) by (rewrite <- Htl; apply nth_error_Some; congruence).
  assert (Ep : nth k taus [] = pts) by (apply nth_error_nth; exact Hp).
  apply (polys_move rs ph Hlen Hph) in Hc; [|exact Hk]. destruct (Hval k cx cu Hk Hc) as (f & E). exists f.
  destruct (Hn k k) as (b & Eb & Enb).
  { rewrite nth_error_nth' with (d := 0%nat) by (rewrite seq_length, <- (mo_len _ Hmp); lia). rewrite seq_nth by (rewrite <- (mo_len _ Hmp); lia). reflexivity. }
  rewrite E, Ep in Eb. rewrite Enb. injection Eb as <-. destruct pts; reflexivity.
Qed.
End Own.

Lemma strip ac mp npath nterm z p : ad_input_ok ac mp npath nterm z -> own_widths mp z p -> exists z0, stripped mp z z0 p.
Proof.
  intros Hin (Lp & Hp). destruct (ad_split mp z (ai_z _ _ _ _ _ Hin)) as (z0 & p' & H1 & H2 & H3). exists z0. split; [exact H1|]. split; [exact Lp|].
  intros ph Hph. split; [apply (H3 ph Hph)|]. intros k Hk. symmetry. apply Hp; auto.
Qed.
Lemma strip_any ac mp npath nterm z : ad_input_ok ac mp npath nterm z -> exists z0 p, stripped mp z z0 p.
Proof. intros Hin. destruct (ad_split mp z (ai_z _ _ _ _ _ Hin)) as (z0 & p' & H1 & H2 & H3). exists z0, p'. split; [exact H1|]. auto. Qed.

Theorem stored_values rc ac mp npath nterm z sw nodes gt : ad_input_ok ac mp npath nterm z ->
  length sw = (o_nph (mp_ocp mp) * mp_nseg mp)%nat ->
  length nodes = o_nph (mp_ocp mp) -> (forall taus, In taus nodes -> length taus = length (mp_orders mp)) ->
  let cf := mp_cf mp in
  exists rs ts res, mapM (c_roots cf) (mp_orders mp) = Ok rs /\
    a_dynamics_residuals rc mp sw z (Some nodes) gt false = Ok (ts, res) /\
    length ts = o_nph (mp_ocp mp) /\ length res = o_nph (mp_ocp mp) /\
    forall ph, (ph < o_nph (mp_ocp mp))%nat -> let w := ad_width mp z ph in let y := ad_traj mp z ph in
      length (nth ph ts []) = length (mp_orders mp) /\ length (nth ph res []) = length (mp_orders mp) /\
      (forall k, (k < length (mp_orders mp))%nat -> exists cx cu, seg_polys mp rs y k cx cu) /\
      forall k pts cx cu, nth_error (nth ph nodes []) k = Some pts -> seg_polys mp rs y k cx cu ->
        nth_error (nth ph ts []) k = Some (map (seg_time cf w y k) pts) /\
        nth_error (nth ph res []) k = Some (match pts with [] => None | _ => Some (state_rows mp (fun s tau => Derive (peval (cx s)) tau -
          (y_tf y - y_t0 y) * width mp sw ph k / (cf_tau1 cf - cf_tau0 cf) * nth s (dyn_along (mp_ocp mp) ph y cx cu tau (seg_time cf w y k tau)) 0) pts) end).
Proof.
  intros Hin Lsw Ln Ht cf. destruct (strip_any ac mp npath nterm z Hin) as (z0 & p & Hst).
  set (S := fun ph => match dyn_residuals_phase_by rc mp (own_trajectories mp) sw z ph (Some (nth ph nodes [])) with Ok s => s | _ => [] end).
  destruct (setup mp npath nterm z0 p (base_in ac mp npath nterm z Hin z0 p Hst)) as (rs & ap & Ers & _).
  assert (HS : forall ph, (ph < o_nph (mp_ocp mp))%nat -> length (nth ph nodes []) = length (mp_orders mp)).
  { intros ph Hph. apply Ht. apply nth_In. lia. }
  assert (HS' : forall ph, (ph < o_nph (mp_ocp mp))%nat -> dyn_residuals_phase_by rc mp (own_trajectories mp) sw z ph (Some (nth ph nodes [])) = Ok (S ph)).
  { intros ph Hph. destruct (stored_phase ac mp npath nterm z Hin z0 p Hst rc sw ph _ Lsw Hph (HS ph Hph)) as (rs' & segs & _ & E & _). unfold S. nred. rewrite E. reflexivity. }
  eexists rs, _, _. split; [exact Ers|]. split.
  { apply (residuals_given rc mp (own_trajectories mp) sw z nodes gt false S (fun ph => map (@sr_r Rnum) (S ph))). intros ph Hph. exists (nth ph nodes []).
    split; [apply nth_error_nth'; lia|]. split; [apply HS'; exact Hph|reflexivity]. }
  rewrite !map_length, !seq_length. split; [reflexivity|]. split; [reflexivity|].
  intros ph Hph w y. rewrite !(nth_map_in _ _ _ _ 0%nat) by (rewrite seq_length; exact Hph). rewrite seq_nth by exact Hph. cbn [Nat.add].
  destruct (stored_phase ac mp npath nterm z Hin z0 p Hst rc sw ph _ Lsw Hph (HS ph Hph)) as (rs' & segs & Ers' & Es & Ls & Hex & Hv).
  assert (rs' = rs) by (nred; congruence). subst rs'. pose proof (HS' ph Hph) as Es'. assert (segs = S ph) by (nred; congruence). subst segs.
  rewrite !map_length. split; [exact Ls|]. split; [exact Ls|]. split; [exact Hex|].
  intros k pts cx cu Hp Hc. destruct (Hv k pts cx cu Hp Hc) as (f & E). rewrite !nth_error_map, E.
  destruct pts; split; reflexivity.
Qed.

(** *** with the widths of the point stored *)
Theorem own_defects rc ac mp npath nterm z p nodes gt : ad_input_ok ac mp npath nterm z -> own_widths mp z p ->
  length nodes = o_nph (mp_ocp mp) -> (forall taus, In taus nodes -> length taus = length (mp_orders mp)) ->
  exists rs ts res, mapM (c_roots (mp_cf mp)) (mp_orders mp) = Ok rs /\
    a_dynamics_residuals rc mp p z (Some nodes) gt false = Ok (ts, res) /\
    length ts = o_nph (mp_ocp mp) /\ length res = o_nph (mp_ocp mp) /\
    forall ph, (ph < o_nph (mp_ocp mp))%nat -> let w := ad_width mp z ph in let y := ad_traj mp z ph in
      length (nth ph ts []) = length (mp_orders mp) /\ length (nth ph res []) = length (mp_orders mp) /\
      (forall k, (k < length (mp_orders mp))%nat -> exists cx cu, seg_polys mp rs y k cx cu) /\
      forall k pts cx cu, nth_error (nth ph nodes []) k = Some pts -> seg_polys mp rs y k cx cu ->
        nth_error (nth ph ts []) k = Some (map (seg_time (mp_cf mp) w y k) pts) /\
        nth_error (nth ph res []) k = Some (match pts with [] => None | _ => Some (state_rows mp (defect mp w ph y k cx cu) pts) end).
Proof.
  intros Hin Hw Ln Ht. destruct (stored_values rc ac mp npath nterm z p nodes gt Hin (proj1 Hw) Ln Ht) as (rs & ts & res & E1 & E2 & L1 & L2 & H).
  exists rs, ts, res. do 4 (split; [assumption|]). intros ph Hph w y. destruct (H ph Hph) as (M1 & M2 & M3 & M4). do 3 (split; [assumption|]).
  intros k pts cx cu Hp Hc. destruct (M4 k pts cx cu Hp Hc) as [N1 N2]. split; [exact N1|]. etransitivity; [exact N2|]. do 2 f_equal. destruct pts; [reflexivity|]. f_equal.
  apply rows_eq_in. intros s tau Hs. unfold defect, rate, seg_h. rewrite (proj2 Hw ph k Hph); [reflexivity|].
  assert (Hk : (k < length (nth ph nodes []))%nat) by (apply nth_error_Some; congruence).
  rewrite Ht in Hk by (apply nth_In; lia). rewrite <- (mo_len _ (ai_mpo _ _ _ _ _ Hin)). exact Hk.
Qed.
Theorem own_states_values rc ac mp npath nterm z p nodes phases : ad_input_ok ac mp npath nterm z -> own_widths mp z p ->
  length nodes = o_nph (mp_ocp mp) ->
  (forall taus, In taus nodes -> length taus = length (mp_orders mp) /\ forall pts, In pts taus -> NoDup pts) ->
  (forall ph, In ph phases -> (ph < o_nph (mp_ocp mp))%nat) ->
  exists rs res, mapM (c_roots (mp_cf mp)) (mp_orders mp) = Ok rs /\
    a_states_residuals rc mp p z (Some phases) (Some nodes) false = Ok res /\ map fst res = phases /\
    forall ph segs, In (ph, segs) res -> let w := ad_width mp z ph in let y := ad_traj mp z ph in
      length segs = length (mp_orders mp) /\
      (forall k, (k < length (mp_orders mp))%nat -> exists cx cu, seg_polys mp rs y k cx cu) /\
      (forall k pts cx cu, nth_error (nth ph nodes []) k = Some pts -> exists cq, dyn_interp mp w ph y k cx cu cq pts) /\
      forall k pts cx cu cq, nth_error (nth ph nodes []) k = Some pts -> seg_polys mp rs y k cx cu -> dyn_interp mp w ph y k cx cu cq pts ->
        nth_error segs k = Some (match pts with
          | [] => None
          | _ => Some (Segstate (N := Rnum) (state_rows mp (integrated mp w y k cq) pts)
                   (control_rows mp (fun q tau => peval (cu q) tau) pts) (map (seg_time (mp_cf mp) w y k) pts)
                   (state_rows mp (fun s tau => peval (cx s) tau - integrated mp w y k cq s tau) pts))
          end).
Proof.
  intros Hin Hw Ln Ht Hphs. destruct (strip ac mp npath nterm z p Hin Hw) as (z0 & Hst).
  pose proof (base_in ac mp npath nterm z Hin z0 p Hst) as Hb.
  destruct (states_all rc mp npath nterm z0 p nodes phases Hb Ln Ht Hphs) as (rs & res & E1 & E2 & E3 & H).
  exists rs, res. split; [exact E1|]. split.
  { etransitivity; [|exact E2]. apply (own_states ac mp npath nterm z Hin z0 p Hst). intros l ph [= <-]. apply Hphs. }
  split; [exact E3|]. destruct (setup mp npath nterm z0 p Hb) as (rs' & ap & Ers' & _ & _ & Hl & Hg & _).
  assert (rs' = rs) by (nred; congruence). subst rs'.
  assert (Hlen : forall k q, nth_error (mp_orders mp) k = Some q -> length (nth k rs []) = S q).
  { intros k q Hk. assert (Hkl : (k < length rs)%nat) by (rewrite Hl; apply nth_error_Some; congruence).
    destruct (Hg k q (nth k rs []) Hk (nth_error_nth' _ _ Hkl)) as (A & _). exact A. }
  intros ph segs Hi w y. destruct (H ph segs Hi) as (M1 & M2 & M3 & M4).
  assert (Hph : (ph < o_nph (mp_ocp mp))%nat) by (apply Hphs; rewrite <- E3; apply in_map_iff; exists (ph, segs); auto).
  assert (Hk : forall k pts, nth_error (nth ph nodes []) k = Some pts -> (k < length (mp_orders mp))%nat).
  { intros k pts Hp. assert (Hk : (k < length (nth ph nodes []))%nat) by (apply nth_error_Some; congruence).
    rewrite (proj1 (Ht (nth ph nodes []) ltac:(apply nth_In; lia))) in Hk. exact Hk. }
  split; [exact M1|]. split; [|split].
  - intros k Hk'. destruct (M2 k Hk') as (cx & cu & Hc). exists cx, cu. now apply (polys_move mp z z0 p Hst rs ph Hlen Hph).
  - intros k pts cx cu Hp. destruct (M3 k pts cx cu Hp) as (cq & Hq). exists cq. apply (interp_move ac mp npath nterm z Hin z0 p Hst ph Hph); eauto.
  - intros k pts cx cu cq Hp Hc Hq. pose proof (Hk k pts Hp) as Hk'.
    apply (polys_move mp z z0 p Hst rs ph Hlen Hph) in Hc; [|exact Hk']. apply (interp_move ac mp npath nterm z Hin z0 p Hst ph Hph) in Hq; [|exact Hk'].
    etransitivity; [exact (M4 k pts cx cu cq Hp Hc Hq)|]. do 2 f_equal. destruct pts; [reflexivity|]. do 2 f_equal.
    + apply rows_eq_in. intros s tau Hs. symmetry. apply (integrated_move ac mp npath nterm z Hin z0 p Hst ph Hph); auto.
    + apply map_ext. intros tau. symmetry. apply (time_move ac mp npath nterm z Hin z0 p Hst ph Hph); auto.
    + apply rows_eq_in. intros s tau Hs. f_equal. symmetry. apply (integrated_move ac mp npath nterm z Hin z0 p Hst ph Hph); auto.
Qed.
Theorem own_second_values rc ac mp npath nterm z p gt nodes : ad_input_ok ac mp npath nterm z -> own_widths mp z p ->
  length nodes = o_nph (mp_ocp mp) -> (forall taus, In taus nodes -> length taus = length (mp_orders mp)) ->
  exists rs res, mapM (c_roots (mp_cf mp)) (mp_orders mp) = Ok rs /\
    a_second_derivative rc mp p z gt (Some nodes) = Ok res /\ length res = o_nph (mp_ocp mp) /\
    forall ph, (ph < o_nph (mp_ocp mp))%nat -> let w := ad_width mp z ph in let y := ad_traj mp z ph in
      length (nth ph res []) = length (mp_orders mp) /\
      forall k pts cx cu, nth_error (nth ph nodes []) k = Some pts -> seg_polys mp rs y k cx cu ->
        nth_error (nth ph res []) k = Some (match pts with
          | [] => None
          | _ => Some (Segdd (N := Rnum) (map (seg_time (mp_cf mp) w y k) pts)
                   (state_rows mp (fun s tau => Derive_n (peval (cx s)) 2 tau) pts)
                   (control_rows mp (fun s tau => Derive_n (peval (cu s)) 2 tau) pts))
          end).
Proof.
  intros Hin Hw Ln Ht. destruct (strip ac mp npath nterm z p Hin Hw) as (z0 & Hst).
  pose proof (base_in ac mp npath nterm z Hin z0 p Hst) as Hb.
  destruct (second_all rc mp npath nterm z0 p gt nodes Hb Ln Ht) as (rs & res & E1 & E2 & E3 & H).
  exists rs, res. split; [exact E1|]. split; [etransitivity; [|exact E2]; apply (own_second ac mp npath nterm z Hin z0 p Hst)|].
  split; [exact E3|]. destruct (setup mp npath nterm z0 p Hb) as (rs' & ap & Ers' & _ & _ & Hl & Hg & _).
  assert (rs' = rs) by (nred; congruence). subst rs'.
  assert (Hlen : forall k q, nth_error (mp_orders mp) k = Some q -> length (nth k rs []) = S q).
  { intros k q Hk. assert (Hkl : (k < length rs)%nat) by (rewrite Hl; apply nth_error_Some; congruence).
    destruct (Hg k q (nth k rs []) Hk (nth_error_nth' _ _ Hkl)) as (A & _). exact A. }
  intros ph Hph w y. destruct (H ph Hph) as (M1 & M2). split; [exact M1|]. intros k pts cx cu Hp Hc.
  assert (Hk : (k < length (mp_orders mp))%nat).
  { assert (Hk : (k < length (nth ph nodes []))%nat) by (apply nth_error_Some; congruence). rewrite Ht in Hk by (apply nth_In; lia). exact Hk. }
  apply (polys_move mp z z0 p Hst rs ph Hlen Hph) in Hc; [|exact Hk].
  etransitivity; [exact (M2 k pts cx cu Hp Hc)|]. do 2 f_equal. destruct pts; [reflexivity|]. do 2 f_equal.
  apply map_ext. intros tau. symmetry. apply (time_move ac mp npath nterm z Hin z0 p Hst ph Hph); auto.
Qed.
(** zero at collocation points iff the dynamics constraints hold *)
Theorem own_zero rc ac mp npath nterm z p nodes gt : ad_input_ok ac mp npath nterm z -> own_widths mp z p ->
  length nodes = o_nph (mp_ocp mp) -> (forall taus, In taus nodes -> length taus = length (mp_orders mp)) ->
  exists rs ts res, mapM (c_roots (mp_cf mp)) (mp_orders mp) = Ok rs /\
    a_dynamics_residuals rc mp p z (Some nodes) gt false = Ok (ts, res) /\
    forall ph, (ph < o_nph (mp_ocp mp))%nat ->
      (dynamics_ok mp rs (ad_width mp z ph) ph (ad_traj mp z ph) ->
       forall k rows pts i x row v, nth_error (nth ph res []) k = Some (Some rows) -> nth_error (nth ph nodes []) k = Some pts ->
         nth_error pts i = Some x -> In x (own_points rs k) -> nth_error rows i = Some row -> In v row -> v = 0) /\
      (nth ph nodes [] = map (own_points rs) (seq 0 (length (mp_orders mp))) ->
       (forall rows row v, In (Some rows) (nth ph res []) -> In row rows -> In v row -> v = 0) ->
       dynamics_ok mp rs (ad_width mp z ph) ph (ad_traj mp z ph)).
Proof.
  intros Hin Hw Ln Ht. destruct (strip ac mp npath nterm z p Hin Hw) as (z0 & Hst).
  pose proof (base_in ac mp npath nterm z Hin z0 p Hst) as Hb.
  destruct (residuals_feasible rc mp npath nterm z0 p nodes gt Hb Ln Ht) as (rs & n & ts & res & E1 & E2 & E3 & H).
  destruct (nlp_blocks mp npath nterm z0 p Hb) as (rs' & n' & Ers' & En' & HB & _).
  assert (rs' = rs) by (nred; congruence). subst rs'. assert (n' = n) by (nred; congruence). subst n'.
  destruct (setup mp npath nterm z0 p Hb) as (rs' & ap & Ers'' & _ & _ & Hl & Hg & _).
  assert (rs' = rs) by (nred; congruence). subst rs'.
  assert (Hlen : forall k q, nth_error (mp_orders mp) k = Some q -> length (nth k rs []) = S q).
  { intros k q Hk. assert (Hkl : (k < length rs)%nat) by (rewrite Hl; apply nth_error_Some; congruence).
    destruct (Hg k q (nth k rs []) Hk (nth_error_nth' _ _ Hkl)) as (A & _). exact A. }
  exists rs, ts, res. split; [exact E1|]. split; [etransitivity; [|exact E3]; apply (own_residuals ac mp npath nterm z Hin z0 p Hst)|].
  intros ph Hph. destruct (HB ph Hph) as (HB0 & _). destruct (H ph Hph) as (H1 & H2).
  assert (Hy := same_y mp z z0 p Hst ph Hph).
  assert (Hw' : forall k, (k < length (mp_orders mp))%nat -> ad_width mp z ph k = width mp p ph k).
  { intros k Hk. apply (same_w ac mp npath nterm z Hin z0 p Hst ph Hph k Hk). }
  split.
  - intros Hd. apply H1. apply HB0. apply (dynamics_congr mp rs (width mp p ph) ph Hlen _ _ Hy). now apply (dynamics_w mp rs _ _ ph _ Hw').
  - intros En Hz. apply (dynamics_w mp rs (width mp p ph)); [intros k Hk; symmetry; auto|]. apply (dynamics_congr mp rs (width mp p ph) ph Hlen _ _ (same_sym mp _ _ Hy)).
    apply HB0. apply H2; auto.
Qed.
Theorem own_process rc ac (mp : mpo Rnum) npath nterm z p plots sc rx rdx : ad_input_ok ac mp npath nterm z -> own_widths mp z p -> plots <> [] ->
  widths_ok (mp_nseg mp) (o_nph (mp_ocp mp)) p ->
  (forall ph, (ph < o_nph (mp_ocp mp))%nat -> exists g, nth_error (r_grid rc) ph = Some g /\ grid_known g) ->
  exists po, a_process_results rc mp plots p z sc rx rdx = Ok po.
Proof.
  intros Hin Hw Hpl Hwo Hg. destruct (strip ac mp npath nterm z p Hin Hw) as (z0 & Hst).
  pose proof (base_in ac mp npath nterm z Hin z0 p Hst) as Hb.
  destruct (process_total rc mp npath nterm z0 p plots sc rx rdx Hb Hpl Hwo Hg) as (po & E). revert E. unfold process_results_by.
  pose proof (own_values ac mp npath nterm z Hin z0 p Hst rc rx rdx) as Ev. nred. rewrite Ev. destruct plots as [|pl ps]; [contradiction|].
  destruct (residual_values rc mp (trajectories mp) p z0 rx rdx); [|discriminate]. intros _. eexists. reflexivity.
Qed.

(** *** feasible points *)
Lemma total_Rsum (l : list R) : total l = Rsum (length l) (fun k => nth k l 0).
Proof.
  unfold total. induction l as [|x l IH] using rev_ind; [reflexivity|]. rewrite app_length, fold_right_app. cbn [length]. rewrite Nat.add_1_r. cbn [Rsum fold_right].
  rewrite app_nth2, Nat.sub_diag by lia. cbn [nth].
  assert (E : forall c, fold_right Rplus c l = fold_right Rplus 0 l + c) by (intros c; clear; induction l as [|y l IH]; cbn; [lra|rewrite IH; lra]).
  rewrite E, IH. rewrite Rplus_0_r. f_equal. apply Rsum_ext. intros i Hi. now rewrite app_nth1.
Qed.
Theorem feasible_widths ac mp npath nterm z p n : ad_input_ok ac mp npath nterm z -> own_widths mp z p ->
  (forall b, In b (ac_lbh ac) -> exists h, b = Fin h /\ 0 < h) ->
  a_nlp_at ac mp z = Ok n -> feasible n -> widths_ok (mp_nseg mp) (o_nph (mp_ocp mp)) p.
Proof.
  intros Hin (Lp & Hw) Hb En Hf. destruct (ad_feasible ac mp npath nterm z Hin) as (rs & n' & _ & En' & _ & HF).
  assert (n' = n) by (nred; congruence). subst n'. apply HF in Hf. destruct Hf as (Hf & _). pose proof (mo_len _ (ai_mpo _ _ _ _ _ Hin)) as Hl.
  split; [rewrite Lp; lia|]. intros ph Hph. destruct (Hf ph Hph) as (_ & Hwb & Hp). destruct Hp as (_ & _ & _ & _ & Hs & _).
  assert (Lpart : length (phase_part (mp_nseg mp) ph p) = mp_nseg mp) by (unfold phase_part; rewrite firstn_length, skipn_length; nred; nia).
  assert (Hn : forall k, (k < mp_nseg mp)%nat -> nth k (phase_part (mp_nseg mp) ph p) 0 = ad_width mp z ph k).
  { intros k Hk. unfold phase_part. rewrite nth_firstn_lt, nth_skipn by exact Hk. rewrite <- (Hw ph k Hph Hk). unfold width. f_equal. lia. }
  split; [exact Lpart|]. split.
  - intros w Hi. destruct (In_nth _ _ 0 Hi) as (k & Hk & <-). rewrite Lpart in Hk. rewrite (Hn k Hk).
    destruct (Hwb k ltac:(lia)) as [Ha _]. destruct (Hb (nth ph (ac_lbh ac) NaN)) as (h & Eh & Hh).
    { apply nth_In. rewrite (ai_lbh _ _ _ _ _ Hin). exact Hph. }
    rewrite Eh in Ha. cbn in Ha. lra.
  - rewrite total_Rsum, Lpart. unfold width_sum_ok in Hs. rewrite Hl in Hs. rewrite <- Hs. apply Rsum_ext. intros k Hk. apply Hn. exact Hk.
Qed.
Theorem feasible_process rc ac (mp : mpo Rnum) npath nterm z p n plots sc rx rdx : ad_input_ok ac mp npath nterm z -> own_widths mp z p ->
  (forall b, In b (ac_lbh ac) -> exists h, b = Fin h /\ 0 < h) -> a_nlp_at ac mp z = Ok n -> feasible n -> plots <> [] ->
  (forall ph, (ph < o_nph (mp_ocp mp))%nat -> exists g, nth_error (r_grid rc) ph = Some g /\ grid_known g) ->
  exists po, a_process_results rc mp plots p z sc rx rdx = Ok po.
Proof.
  intros Hin Hw Hb En Hf Hpl Hg. eapply own_process; eauto. eapply feasible_widths; eauto.
Qed.
(** a feasible point has residual 0 at all collocation points *)
Theorem feasible_zero rc ac mp npath nterm z p n nodes gt : ad_input_ok ac mp npath nterm z -> own_widths mp z p ->
  a_nlp_at ac mp z = Ok n -> feasible n ->
  length nodes = o_nph (mp_ocp mp) -> (forall taus, In taus nodes -> length taus = length (mp_orders mp)) ->
  exists rs ts res, mapM (c_roots (mp_cf mp)) (mp_orders mp) = Ok rs /\
    a_dynamics_residuals rc mp p z (Some nodes) gt false = Ok (ts, res) /\
    forall ph k rows pts i x row v, (ph < o_nph (mp_ocp mp))%nat -> nth_error (nth ph res []) k = Some (Some rows) -> nth_error (nth ph nodes []) k = Some pts ->
      nth_error pts i = Some x -> In x (own_points rs k) -> nth_error rows i = Some row -> In v row -> v = 0.
Proof.
  intros Hin Hw En Hf Ln Ht. destruct (own_zero rc ac mp npath nterm z p nodes gt Hin Hw Ln Ht) as (rs & ts & res & E1 & E2 & H).
  destruct (ad_feasible ac mp npath nterm z Hin) as (rs' & n' & Er & En' & _ & HF).
  assert (n' = n) by (nred; congruence). subst n'. assert (rs' = rs) by (nred; congruence). subst rs'. apply HF in Hf. destruct Hf as (Hf & _).
  exists rs, ts, res. split; [exact E1|]. split; [exact E2|]. intros ph k rows pts i x row v Hph. destruct (H ph Hph) as (H1 & _). apply H1.
  destruct (Hf ph Hph) as (_ & _ & (Hd & _)). exact Hd.
Qed.
(** the widths stored by a solve are those of its solution *)
Theorem solve_stores (E : env (N := Rnum)) (mp : mpo Rnum) a s s' sol : a_solve mp E a s = (s', Ok sol) ->
  exists x ws, dget String.eqb sol "x"%string = Some x /\ st_sw s' = Some ws /\ own_widths mp x ws.
Proof.
  intros H. destruct (a_solve_ok E mp a s s' sol H) as (c & x & ws & _ & _ & _ & _ & _ & _ & Hx & Hs & _ & Lw & Hw).
  exists x, ws. split; [exact Hx|]. split; [exact Hs|]. split; [exact Lw|exact Hw].
Qed.
Theorem own_as_fixed rc ac mp npath nterm z z0 p : ad_input_ok ac mp npath nterm z ->
  length z0 = (o_nph (mp_ocp mp) * nvars mp)%nat -> own_widths mp z p ->
  (forall ph, (ph < o_nph (mp_ocp mp))%nat -> same_traj mp (ad_traj mp z ph) (user_traj mp z0 ph)) ->
  (forall nodes gt rel, a_dynamics_residuals rc mp p z nodes gt rel = dynamics_residuals rc mp p z0 nodes gt rel) /\
  (forall phases nodes rel, (forall ph, In ph phases -> (ph < o_nph (mp_ocp mp))%nat) ->
     a_states_residuals rc mp p z (Some phases) nodes rel = states_residuals rc mp p z0 (Some phases) nodes rel) /\
  (forall nodes rel, a_states_residuals rc mp p z None nodes rel = states_residuals rc mp p z0 None nodes rel) /\
  (forall gt nodes, a_second_derivative rc mp p z gt nodes = second_derivative rc mp p z0 gt nodes).
Proof.
  intros Hin Hz0 (Lp & Hw) Hs. assert (Hst : stripped mp z z0 p).
  { split; [exact Hz0|]. split; [exact Lp|]. intros ph Hph. split; [apply Hs; exact Hph|]. intros k Hk. symmetry. apply Hw; auto. }
  split; [|split; [|split]].
  - intros. apply (own_residuals ac mp npath nterm z Hin z0 p Hst).
  - intros phases nodes rel H. apply (own_states ac mp npath nterm z Hin z0 p Hst). intros l ph [= <-]. apply H.
  - intros. apply (own_states ac mp npath nterm z Hin z0 p Hst). intros l ph [=].
  - intros. apply (own_second ac mp npath nterm z Hin z0 p Hst).
Qed.
