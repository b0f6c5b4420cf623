(** Two problems beside each other in one (proofs of C84). *)
From Coq Require Import Reals Lia Lra Bool Arith String.
From Coquelicot Require Import Coquelicot.
From Coq Require Import List.
From Verif Require Import Num PyList Mat Poly Roots Colloc Ocp Transcribe Spec SpecOcp SpecCoord SpecBeside NumR ListR PolyR CollocR CompR CollocThm MeshR BlockR DiscR NlpR OcpR NlpThm CostR ScaleR ConvexR TransR.
Import ListNotations.
Open Scope R_scope.

Lemma vec_beside n m f : vec (n + m) f = vec n f ++ vec m (fun i => f (n + i)%nat).
Proof.
  unfold vec. rewrite seq_app, map_app. f_equal. cbn [Nat.add]. rewrite <- (map_map (fun i => (n + i)%nat) f). f_equal.
  rewrite <- (Nat.add_0_r n) at 1. generalize 0%nat. induction m as [|m IH]; intros k; [reflexivity|]. cbn [seq map]. f_equal. rewrite <- Nat.add_succ_r. apply IH.
Qed.
Lemma a_of_args o y : a_of o y = args (vec (o_na o) (y_a y)).
Proof. unfold a_of. destruct (o_na o); reflexivity. Qed.
Lemma args_arg o (l : list R) : length l = o_na o -> arg_ok o (args l).
Proof. intros H. unfold arg_ok. destruct l as [|x l]; cbn in H; rewrite <- H; [reflexivity|]. cbn. eexists. split; [reflexivity|]. reflexivity. Qed.
Lemma len_vec n f : length (vec n f) = n.
Proof. unfold vec. rewrite map_length. apply seq_length. Qed.
Lemma split_le n m (P : nat -> Prop) : (forall s, (s < n + m)%nat -> P s) <-> (forall s, (s < n)%nat -> P s) /\ (forall s, (s < m)%nat -> P (n + s)%nat).
Proof.
  split; [intros H; split; intros s Hs; apply H; lia|]. intros (A & B) s Hs. destruct (Nat.lt_ge_cases s n) as [H|H]; [auto|].
  replace s with (n + (s - n))%nat by lia. apply B. lia.
Qed.
Lemma nth_beside {T} n (m ma mb : list (list T)) ra ca i s (d : T) : rows_beside n m ma mb -> shaped ma ra ca -> (i < n)%nat -> (n <= ra)%nat ->
  ((s < ca)%nat -> nth s (nth i m []) d = nth s (nth i ma []) d) /\ nth (ca + s) (nth i m []) d = nth s (nth i mb []) d.
Proof.
  intros H (L & H2) Hi Hn. rewrite (H i Hi). assert (E : length (nth i ma []) = ca) by (apply H2, nth_In; lia).
  split; [intros Hs; apply app_nth1; lia|]. rewrite app_nth2 by lia. f_equal. lia.
Qed.

Section Beside.
Variables (mp : mpo Rnum) (oa ob : ocp Rnum) (npath nterm npa nta npb ntb : nat -> option nat).
Let o := mp_ocp mp.
Let ma := with_ocp mp oa.
Let mb := with_ocp mp ob.
Hypothesis Hb : beside o oa ob.
Hypothesis Ho : ocp_ok o npath nterm.
Hypothesis Ha : ocp_ok oa npa nta.
Hypothesis Hbb : ocp_ok ob npb ntb.

Lemma fns {F} (l la lb : list F) ph : (ph < o_nph o)%nat -> length l = o_nph o -> length la = o_nph oa -> length lb = o_nph ob ->
  exists f fa fb, nth_error l ph = Some f /\ nth_error la ph = Some fa /\ nth_error lb ph = Some fb.
Proof using Hb.
  destruct (bs_phases _ _ _ Hb) as (E1 & E2 & _). intros H L La Lb.
  destruct (nth_error l ph) as [f|] eqn:Ef; [|apply nth_error_None in Ef; lia].
  destruct (nth_error la ph) as [fa|] eqn:Ea; [|apply nth_error_None in Ea; lia].
  destruct (nth_error lb ph) as [fb|] eqn:Eb; [|apply nth_error_None in Eb; lia]. eauto 10.
Qed.
Section Phase.
Variables (ph : nat) (y : utraj).
Hypothesis Hph : (ph < o_nph o)%nat.
Let yb := second oa y.
Lemma va_args : a_of o y = args (vec (o_na oa) (y_a y) ++ vec (o_na ob) (y_a yb)).
Proof using Hb. rewrite a_of_args. destruct (bs_dims _ _ _ Hb) as (_ & _ & ->). now rewrite vec_beside. Qed.
Lemma vx_app i : vec (o_nx o) (y_x y i) = vec (o_nx oa) (y_x y i) ++ vec (o_nx ob) (y_x yb i).
Proof using Hb. destruct (bs_dims _ _ _ Hb) as (-> & _). apply vec_beside. Qed.
Lemma vu_app i : vec (o_nu o) (y_u y i) = vec (o_nu oa) (y_u y i) ++ vec (o_nu ob) (y_u yb i).
Proof using Hb. destruct (bs_dims _ _ _ Hb) as (_ & -> & _). apply vec_beside. Qed.
Lemma dyn_app i t : dyn_val o ph y i t = dyn_val oa ph y i t ++ dyn_val ob ph yb i t /\ length (dyn_val oa ph y i t) = o_nx oa.
Proof using Hb Ho Ha Hbb Hph.
  destruct (fns (o_dyn o) (o_dyn oa) (o_dyn ob) ph Hph (sh_dyn _ (ok_shapes _ _ _ Ho)) (sh_dyn _ (ok_shapes _ _ _ Ha)) (sh_dyn _ (ok_shapes _ _ _ Hbb))) as (f & fa & fb & E & Ea & Eb).
  unfold dyn_val. nred. rewrite E, Ea, Eb, vx_app, vu_app, va_args, !a_of_args.
  destruct (ok_dyn _ _ _ Ha ph fa (vec (o_nx oa) (y_x y i)) (vec (o_nu oa) (y_u y i)) t (args (vec (o_na oa) (y_a y))) Ea (len_vec _ _) (len_vec _ _) (args_arg _ _ (len_vec _ _))) as (da & Da & La).
  destruct (ok_dyn _ _ _ Hbb ph fb (vec (o_nx ob) (y_x yb i)) (vec (o_nu ob) (y_u yb i)) t (args (vec (o_na ob) (y_a yb))) Eb (len_vec _ _) (len_vec _ _) (args_arg _ _ (len_vec _ _))) as (db & Db & _).
  rewrite (bs_dyn _ _ _ Hb ph f fa fb E Ea Eb _ _ _ _ t _ _ da db (len_vec _ _) (len_vec _ _) (len_vec _ _) (len_vec _ _) (len_vec _ _) (len_vec _ _) Da Db), Da, Db. auto.
Qed.
Lemma run_app i t : run_val o ph y i t = run_val oa ph y i t + run_val ob ph yb i t.
Proof using Hb Ho Ha Hbb Hph.
  destruct (fns (o_run o) (o_run oa) (o_run ob) ph Hph (sh_run _ (ok_shapes _ _ _ Ho)) (sh_run _ (ok_shapes _ _ _ Ha)) (sh_run _ (ok_shapes _ _ _ Hbb))) as (f & fa & fb & E & Ea & Eb).
  unfold run_val. nred. rewrite E, Ea, Eb, vx_app, vu_app, va_args, !a_of_args.
  destruct (ok_run _ _ _ Ha ph fa (vec (o_nx oa) (y_x y i)) (vec (o_nu oa) (y_u y i)) t (args (vec (o_na oa) (y_a y))) Ea (len_vec _ _) (len_vec _ _) (args_arg _ _ (len_vec _ _))) as (da & Da).
  destruct (ok_run _ _ _ Hbb ph fb (vec (o_nx ob) (y_x yb i)) (vec (o_nu ob) (y_u yb i)) t (args (vec (o_na ob) (y_a yb))) Eb (len_vec _ _) (len_vec _ _) (args_arg _ _ (len_vec _ _))) as (db & Db).
  rewrite (bs_run _ _ _ Hb ph f fa fb E Ea Eb _ _ _ _ t _ _ da db (len_vec _ _) (len_vec _ _) (len_vec _ _) (len_vec _ _) (len_vec _ _) (len_vec _ _) Da Db), Da, Db. reflexivity.
Qed.
Lemma mayer_app l : mayer_val o ph y l = mayer_val oa ph y l + mayer_val ob ph yb l.
Proof using Hb Ho Ha Hbb Hph.
  destruct (fns (o_mayer o) (o_mayer oa) (o_mayer ob) ph Hph (sh_mayer _ (ok_shapes _ _ _ Ho)) (sh_mayer _ (ok_shapes _ _ _ Ha)) (sh_mayer _ (ok_shapes _ _ _ Hbb))) as (f & fa & fb & E & Ea & Eb).
  unfold mayer_val. nred. rewrite E, Ea, Eb, !vx_app, va_args, !a_of_args. change (y_tf yb) with (y_tf y). change (y_t0 yb) with (y_t0 y).
  destruct (ok_mayer _ _ _ Ha ph fa (vec (o_nx oa) (y_x y l)) (y_tf y) (vec (o_nx oa) (y_x y 0)) (y_t0 y) (args (vec (o_na oa) (y_a y))) Ea (len_vec _ _) (len_vec _ _) (args_arg _ _ (len_vec _ _))) as (da & Da).
  destruct (ok_mayer _ _ _ Hbb ph fb (vec (o_nx ob) (y_x yb l)) (y_tf y) (vec (o_nx ob) (y_x yb 0)) (y_t0 y) (args (vec (o_na ob) (y_a yb))) Eb (len_vec _ _) (len_vec _ _) (args_arg _ _ (len_vec _ _))) as (db & Db).
  rewrite (bs_mayer _ _ _ Hb ph f fa fb E Ea Eb _ _ _ _ (y_tf y) (y_t0 y) _ _ da db (len_vec _ _) (len_vec _ _) (len_vec _ _) (len_vec _ _) (len_vec _ _) (len_vec _ _) Da Db), Da, Db. reflexivity.
Qed.
Lemma path_app i t c : In c (path_val o ph y i t) <-> In c (path_val oa ph y i t) \/ In c (path_val ob ph yb i t).
Proof using Hb Ho Ha Hbb Hph.
  destruct (fns (o_path o) (o_path oa) (o_path ob) ph Hph (sh_path _ (ok_shapes _ _ _ Ho)) (sh_path _ (ok_shapes _ _ _ Ha)) (sh_path _ (ok_shapes _ _ _ Hbb))) as (f & fa & fb & E & Ea & Eb).
  unfold path_val. nred. rewrite E, Ea, Eb, vx_app, vu_app, va_args, !a_of_args.
  assert (Da : exists ca, fa (vec (o_nx oa) (y_x y i)) (vec (o_nu oa) (y_u y i)) t (args (vec (o_na oa) (y_a y))) = Ok ca).
  { pose proof (ok_path _ _ _ Ha ph fa (vec (o_nx oa) (y_x y i)) (vec (o_nu oa) (y_u y i)) t (args (vec (o_na oa) (y_a y))) Ea (len_vec _ _) (len_vec _ _) (args_arg _ _ (len_vec _ _))) as X. destruct (npa ph); [destruct X as (l & X & _)|]; eauto. }
  assert (Db : exists cb, fb (vec (o_nx ob) (y_x yb i)) (vec (o_nu ob) (y_u yb i)) t (args (vec (o_na ob) (y_a yb))) = Ok cb).
  { pose proof (ok_path _ _ _ Hbb ph fb (vec (o_nx ob) (y_x yb i)) (vec (o_nu ob) (y_u yb i)) t (args (vec (o_na ob) (y_a yb))) Eb (len_vec _ _) (len_vec _ _) (args_arg _ _ (len_vec _ _))) as X. destruct (npb ph); [destruct X as (l & X & _)|]; eauto. }
  destruct Da as (ca & Da), Db as (cb & Db).
  rewrite (bs_path _ _ _ Hb ph f fa fb E Ea Eb _ _ _ _ t _ _ ca cb (len_vec _ _) (len_vec _ _) (len_vec _ _) (len_vec _ _) (len_vec _ _) (len_vec _ _) Da Db), Da, Db.
  destruct ca, cb; cbn; rewrite ?in_app_iff; tauto.
Qed.
Lemma term_app l c : In c (term_val o ph y l) <-> In c (term_val oa ph y l) \/ In c (term_val ob ph yb l).
Proof using Hb Ho Ha Hbb Hph.
  destruct (fns (o_term o) (o_term oa) (o_term ob) ph Hph (sh_term _ (ok_shapes _ _ _ Ho)) (sh_term _ (ok_shapes _ _ _ Ha)) (sh_term _ (ok_shapes _ _ _ Hbb))) as (f & fa & fb & E & Ea & Eb).
  unfold term_val. nred. rewrite E, Ea, Eb, !vx_app, va_args, !a_of_args. change (y_tf yb) with (y_tf y). change (y_t0 yb) with (y_t0 y).
  assert (Da : exists ca, fa (vec (o_nx oa) (y_x y l)) (y_tf y) (vec (o_nx oa) (y_x y 0)) (y_t0 y) (args (vec (o_na oa) (y_a y))) = Ok ca).
  { pose proof (ok_term _ _ _ Ha ph fa (vec (o_nx oa) (y_x y l)) (y_tf y) (vec (o_nx oa) (y_x y 0)) (y_t0 y) (args (vec (o_na oa) (y_a y))) Ea (len_vec _ _) (len_vec _ _) (args_arg _ _ (len_vec _ _))) as X. destruct (nta ph); [destruct X as (l' & X & _)|]; eauto. }
  assert (Db : exists cb, fb (vec (o_nx ob) (y_x yb l)) (y_tf y) (vec (o_nx ob) (y_x yb 0)) (y_t0 y) (args (vec (o_na ob) (y_a yb))) = Ok cb).
  { pose proof (ok_term _ _ _ Hbb ph fb (vec (o_nx ob) (y_x yb l)) (y_tf y) (vec (o_nx ob) (y_x yb 0)) (y_t0 y) (args (vec (o_na ob) (y_a yb))) Eb (len_vec _ _) (len_vec _ _) (args_arg _ _ (len_vec _ _))) as X. destruct (ntb ph); [destruct X as (l' & X & _)|]; eauto. }
  destruct Da as (ca & Da), Db as (cb & Db).
  rewrite (bs_term _ _ _ Hb ph f fa fb E Ea Eb _ _ _ _ (y_tf y) (y_t0 y) _ _ ca cb (len_vec _ _) (len_vec _ _) (len_vec _ _) (len_vec _ _) (len_vec _ _) (len_vec _ _) Da Db), Da, Db.
  destruct ca, cb; cbn; rewrite ?in_app_iff; tauto.
Qed.

Lemma bnd_app (m m1 m2 : list (list (ext R))) ca s : rows_beside (o_nph o) m m1 m2 -> shaped m1 (o_nph oa) ca ->
  ((s < ca)%nat -> bnd ph m s = bnd ph m1 s) /\ bnd ph m (ca + s) = bnd ph m2 s.
Proof using Hb Hph. intros H H1. destruct (bs_phases _ _ _ Hb) as (E1 & _). apply (nth_beside (o_nph o) m m1 m2 (o_nph oa)); auto. rewrite E1. apply le_n. Qed.
Lemma bounds_app : bounds_ok mp ph y <-> bounds_ok ma ph y /\ bounds_ok mb ph yb.
Proof using Hb Ho Ha Hbb Hph.
  pose proof (ok_shapes _ _ _ Ha) as Sa. destruct (bs_dims _ _ _ Hb) as (E1 & E2 & E3). destruct (bs_x _ _ _ Hb) as (X1 & X2). destruct (bs_u _ _ _ Hb) as (U1 & U2). destruct (bs_a _ _ _ Hb) as (A1 & A2).
  pose proof (fun s => bnd_app _ _ _ _ s X1 (sh_lbx _ Sa)) as BX1. pose proof (fun s => bnd_app _ _ _ _ s X2 (sh_ubx _ Sa)) as BX2.
  pose proof (fun s => bnd_app _ _ _ _ s U1 (sh_lbu _ Sa)) as BU1. pose proof (fun s => bnd_app _ _ _ _ s U2 (sh_ubu _ Sa)) as BU2.
  pose proof (fun s => bnd_app _ _ _ _ s A1 (sh_lba _ Sa)) as BA1. pose proof (fun s => bnd_app _ _ _ _ s A2 (sh_uba _ Sa)) as BA2.
  assert (X0 : forall s, ((s < o_nx oa)%nat -> nth s (nth 0 (o_x00 o) []) 0 = nth s (nth 0 (o_x00 oa) []) 0) /\ nth (o_nx oa + s) (nth 0 (o_x00 o) []) 0 = nth s (nth 0 (o_x00 ob) []) 0).
  { intros s. apply (nth_beside 1 _ _ _ (o_nph oa)); [|exact (sh_x00 _ Sa)|lia|exact (sh_nph _ Sa)]. intros [|i] Hi; [exact (bs_start _ _ _ Hb)|lia]. }
  pose proof (bs_t0 _ _ _ Hb ph (y_t0 y) Hph) as T0. pose proof (bs_tf _ _ _ Hb ph (y_tf y) Hph) as TF.
  unfold bounds_ok. fold o. cbn [ma mb with_ocp mp_ocp mp_orders]. change (y_t0 yb) with (y_t0 y). change (y_tf yb) with (y_tf y).
  split.
  - intros (P1 & P2 & P3 & P4 & P5). apply T0 in P3. apply TF in P4. split; (split; [|split; [|split; [|split]]]).
    + intros i s Hi Hs. specialize (P1 i s Hi ltac:(lia)). rewrite (proj1 (BX1 s) Hs), (proj1 (BX2 s) Hs) in P1. destruct (Nat.eqb ph 0 && Nat.eqb i 0); [|exact P1]. rewrite P1. apply X0. exact Hs.
    + intros i c Hi Hc. specialize (P2 i c Hi ltac:(lia)). rewrite (proj1 (BU1 c) Hc), (proj1 (BU2 c) Hc) in P2. exact P2.
    + apply P3.
    + apply P4.
    + intros i Hi. specialize (P5 i ltac:(lia)). rewrite (proj1 (BA1 i) Hi), (proj1 (BA2 i) Hi) in P5. exact P5.
    + intros i s Hi Hs. specialize (P1 i (o_nx oa + s)%nat Hi ltac:(lia)). rewrite (proj2 (BX1 s)), (proj2 (BX2 s)) in P1. unfold yb, second. cbn [y_x]. destruct (Nat.eqb ph 0 && Nat.eqb i 0); [|exact P1]. rewrite P1. apply X0.
    + intros i c Hi Hc. specialize (P2 i (o_nu oa + c)%nat Hi ltac:(lia)). rewrite (proj2 (BU1 c)), (proj2 (BU2 c)) in P2. exact P2.
    + apply P3.
    + apply P4.
    + intros i Hi. specialize (P5 (o_na oa + i)%nat ltac:(lia)). rewrite (proj2 (BA1 i)), (proj2 (BA2 i)) in P5. exact P5.
  - intros ((P1 & P2 & P3 & P4 & P5) & (Q1 & Q2 & Q3 & Q4 & Q5)). split; [|split; [|split; [|split]]].
    + intros i s Hi Hs. rewrite E1 in Hs. revert s Hs. apply split_le. split; intros s Hs.
      * rewrite (proj1 (BX1 s) Hs), (proj1 (BX2 s) Hs). specialize (P1 i s Hi Hs). destruct (Nat.eqb ph 0 && Nat.eqb i 0); [|exact P1]. rewrite P1. symmetry. apply X0. exact Hs.
      * rewrite (proj2 (BX1 s)), (proj2 (BX2 s)). specialize (Q1 i s Hi Hs). unfold yb, second in Q1. cbn [y_x] in Q1. destruct (Nat.eqb ph 0 && Nat.eqb i 0); [|exact Q1]. rewrite Q1. symmetry. apply X0.
    + intros i s Hi Hs. rewrite E2 in Hs. revert s Hs. apply split_le. split; intros s Hs.
      * rewrite (proj1 (BU1 s) Hs), (proj1 (BU2 s) Hs). exact (P2 i s Hi Hs).
      * rewrite (proj2 (BU1 s)), (proj2 (BU2 s)). exact (Q2 i s Hi Hs).
    + apply T0. split; assumption.
    + apply TF. split; assumption.
    + intros s Hs. rewrite E3 in Hs. revert s Hs. apply split_le. split; intros s Hs.
      * rewrite (proj1 (BA1 s) Hs), (proj1 (BA2 s) Hs). exact (P5 s Hs).
      * rewrite (proj2 (BA1 s)), (proj2 (BA2 s)). exact (Q5 s Hs).
Qed.
Lemma scale_app q : ((q < o_nu oa)%nat -> nth q (o_scale_u o) 0 = nth q (o_scale_u oa) 0) /\ nth (o_nu oa + q) (o_scale_u o) 0 = nth q (o_scale_u ob) 0.
Proof using Hb Ha.
  pose proof (sh_su _ (ok_shapes _ _ _ Ha)) as L. rewrite (bs_scale _ _ _ Hb). clear - L. nred. split; [intros H; apply app_nth1; lia|]. rewrite app_nth2 by lia. f_equal. lia.
Qed.
Lemma phase_app rs w : phase_ok mp rs w ph y <-> phase_ok ma rs w ph y /\ phase_ok mb rs w ph yb.
Proof using Hb Ho Ha Hbb Hph.
  pose proof (ok_shapes _ _ _ Ha) as Sa. destruct (bs_dims _ _ _ Hb) as (E1 & E2 & E3). destruct (bs_u _ _ _ Hb) as (U1 & U2).
  pose proof (fun s => bnd_app _ _ _ _ s U1 (sh_lbu _ Sa)) as BU1. pose proof (fun s => bnd_app _ _ _ _ s U2 (sh_ubu _ Sa)) as BU2.
  destruct (bs_slopes _ _ _ Hb) as ((F1 & F1') & (F2 & F2') & (F3 & F3')). destruct (bs_flags _ _ _ Hb) as ((G1 & G1') & (G2 & G2')).
  assert (DA : forall i t s, (s < o_nx oa)%nat -> nth s (dyn_val o ph y i t) 0 = nth s (dyn_val oa ph y i t) 0).
  { intros i t s Hs. destruct (dyn_app i t) as (-> & L). apply app_nth1. rewrite L. exact Hs. }
  assert (DB : forall i t s, nth (o_nx oa + s) (dyn_val o ph y i t) 0 = nth s (dyn_val ob ph yb i t) 0).
  { intros i t s. destruct (dyn_app i t) as (-> & L). rewrite app_nth2 by (rewrite L; lia). f_equal. rewrite L. lia. }
  unfold phase_ok, dynamics_ok, path_ok, slope_ok, midu_ok, ducont_ok, terminal_ok. fold o. cbn [ma mb with_ocp mp_ocp mp_orders mp_cf]. rewrite F1, F1', F2, F2', F3, F3', G1, G1', G2, G2'.
  change (seg_time (mp_cf mp) w yb) with (seg_time (mp_cf mp) w y). change (seg_h (mp_cf mp) w yb) with (seg_h (mp_cf mp) w y).
  split.
  - intros (P1 & P2 & P3 & P4 & P5 & P6). split; (split; [|split; [|split; [|split; [|split]]]]).
    + intros i k j s c H Hs Hc. rewrite <- DA by exact Hs. apply (P1 i k j s c H); [lia|exact Hc].
    + intros i k j c H Hc. apply (P2 i k j c H). apply path_app. left. exact Hc.
    + intros Hd i k j q c H Hq Hc. rewrite <- (proj1 (scale_app q) Hq). apply (P3 Hd i k j q c H); [lia|exact Hc].
    + intros Hd k p j q c H Hj Hq Hc. rewrite <- (proj1 (BU1 q) Hq), <- (proj1 (BU2 q) Hq). apply (P4 Hd k p j q c H Hj); [lia|exact Hc].
    + intros Hd k q c c' Hk Hq Hc Hc'. apply (P5 Hd k q c c' Hk); [lia|exact Hc|exact Hc'].
    + intros c Hc. apply P6, term_app. left. exact Hc.
    + intros i k j s c H Hs Hc. rewrite <- DB. apply (P1 i k j (o_nx oa + s)%nat c H); [lia|exact Hc].
    + intros i k j c H Hc. apply (P2 i k j c H). apply path_app. right. exact Hc.
    + intros Hd i k j q c H Hq Hc. rewrite <- (proj2 (scale_app q)). apply (P3 Hd i k j (o_nu oa + q)%nat c H); [lia|exact Hc].
    + intros Hd k p j q c H Hj Hq Hc. rewrite <- (proj2 (BU1 q)), <- (proj2 (BU2 q)). apply (P4 Hd k p j (o_nu oa + q)%nat c H Hj); [lia|exact Hc].
    + intros Hd k q c c' Hk Hq Hc Hc'. apply (P5 Hd k (o_nu oa + q)%nat c c' Hk); [lia|exact Hc|exact Hc'].
    + intros c Hc. apply P6, term_app. right. exact Hc.
  - intros ((P1 & P2 & P3 & P4 & P5 & P6) & (Q1 & Q2 & Q3 & Q4 & Q5 & Q6)). split; [|split; [|split; [|split; [|split]]]].
    + intros i k j s c H Hs. rewrite E1 in Hs. revert s Hs c. apply (split_le _ _ (fun s => forall c, seg_interp (mp_orders mp) k (nth k rs []) (fun i0 : nat => y_x y i0 s) c -> is_derive (peval c) (nth j (nth k rs []) 0) (seg_h (mp_cf mp) w y k * nth s (dyn_val o ph y i (seg_time (mp_cf mp) w y k (nth j (nth k rs []) 0))) 0))). split; intros s Hs c Hc.
      * rewrite DA by exact Hs. exact (P1 i k j s c H Hs Hc).
      * rewrite DB. exact (Q1 i k j s c H Hs Hc).
    + intros i k j c H Hc. apply path_app in Hc. destruct Hc as [Hc|Hc]; [exact (P2 i k j c H Hc)|exact (Q2 i k j c H Hc)].
    + intros Hd i k j q c H Hq. rewrite E2 in Hq. revert q Hq c. apply (split_le _ _ (fun q => forall c, seg_interp (mp_orders mp) k (nth k rs []) (fun i0 : nat => y_u y i0 q) c -> within (nth ph (o_lbdu o) NaN) (nth ph (o_ubdu o) NaN) (nth q (o_scale_u o) 0 * Derive (peval c) (nth j (nth k rs []) 0)))). split; intros q Hq c Hc.
      * rewrite (proj1 (scale_app q) Hq). exact (P3 Hd i k j q c H Hq Hc).
      * rewrite (proj2 (scale_app q)). exact (Q3 Hd i k j q c H Hq Hc).
    + intros Hd k p j q c H Hj Hq. rewrite E2 in Hq. revert q Hq c. apply (split_le _ _ (fun q => forall c, seg_interp (mp_orders mp) k (nth k rs []) (fun i0 : nat => y_u y i0 q) c -> within (bnd ph (o_lbu o) q) (bnd ph (o_ubu o) q) (peval c ((nth j (nth k rs []) 0 + nth (S j) (nth k rs []) 0) / 2)))). split; intros q Hq c Hc.
      * rewrite (proj1 (BU1 q) Hq), (proj1 (BU2 q) Hq). exact (P4 Hd k p j q c H Hj Hq Hc).
      * rewrite (proj2 (BU1 q)), (proj2 (BU2 q)). exact (Q4 Hd k p j q c H Hj Hq Hc).
    + intros Hd k q c c' Hk Hq. rewrite E2 in Hq. revert q Hq c c'. apply (split_le _ _ (fun q => forall c c', seg_interp (mp_orders mp) k (nth k rs []) (fun i0 : nat => y_u y i0 q) c -> seg_interp (mp_orders mp) (S k) (nth (S k) rs []) (fun i0 : nat => y_u y i0 q) c' -> Derive (peval c) (cf_tau1 (mp_cf mp)) = Derive (peval c') (cf_tau0 (mp_cf mp)))). split; intros q Hq c c' Hc Hc'.
      * exact (P5 Hd k q c c' Hk Hq Hc Hc').
      * exact (Q5 Hd k q c c' Hk Hq Hc Hc').
    + intros c Hc. apply term_app in Hc. destruct Hc as [Hc|Hc]; [exact (P6 c Hc)|exact (Q6 c Hc)].
Qed.
Lemma cost_app rs w : node_cost mp rs w ph y = node_cost ma rs w ph y + node_cost mb rs w ph yb.
Proof using Hb Ho Ha Hbb Hph.
  unfold node_cost. cbn [ma mb with_ocp mp_ocp mp_orders mp_cf]. fold o. rewrite mayer_app.
  assert (E : Rsum (length (mp_orders mp)) (seg_cost mp rs w ph y (wts (mp_cf mp) (mp_orders mp))) =
    Rsum (length (mp_orders mp)) (seg_cost ma rs w ph y (wts (mp_cf mp) (mp_orders mp))) + Rsum (length (mp_orders mp)) (seg_cost mb rs w ph yb (wts (mp_cf mp) (mp_orders mp)))).
  { rewrite <- Rsum_plus. apply Rsum_ext. intros k Hk. unfold seg_cost. cbn [ma mb with_ocp mp_ocp mp_orders mp_cf]. change (seg_h (mp_cf mp) w yb) with (seg_h (mp_cf mp) w y). rewrite <- Rmult_plus_distr_l. f_equal. rewrite <- Rsum_plus. apply Rsum_ext. intros j Hj.
    unfold run_at. cbn [ma mb with_ocp mp_ocp mp_orders mp_cf]. fold o. rewrite run_app. change (seg_time (mp_cf mp) w yb) with (seg_time (mp_cf mp) w y). apply Rmult_plus_distr_l. }
  rewrite E. ring.
Qed.
End Phase.
Lemma links_app ys : links_ok mp ys <-> links_ok ma ys /\ links_ok mb (fun ph => second oa (ys ph)).
Proof using Hb Ho Ha Hbb.
  pose proof (ok_shapes _ _ _ Ha) as Sa. destruct (bs_phases _ _ _ Hb) as (N1 & N2 & L1 & L2). destruct (bs_dims _ _ _ Hb) as (E1 & E2 & E3). destruct (bs_e _ _ _ Hb) as (X1 & X2).
  assert (BE : (1 < o_nph o)%nat -> forall k ij s, nth_error (o_links o) k = Some ij ->
    ((s < o_nx oa)%nat -> nth s (nth k (o_lbe o) []) NaN = nth s (nth k (o_lbe oa) []) NaN /\ nth s (nth k (o_ube o) []) NaN = nth s (nth k (o_ube oa) []) NaN) /\
    nth (o_nx oa + s) (nth k (o_lbe o) []) NaN = nth s (nth k (o_lbe ob) []) NaN /\ nth (o_nx oa + s) (nth k (o_ube o) []) NaN = nth s (nth k (o_ube ob) []) NaN).
  { intros Hn k ij s Hk. assert (Hl : (k < o_nph o - 1)%nat) by (pose proof (MeshR.nth_error_lt _ _ _ Hk); pose proof (ok_links_len _ _ _ Ho); lia).
    destruct (nth_beside (o_nph o - 1) _ _ _ _ _ k s (@NaN R) X1 (proj2 (sh_lbe _ Sa) ltac:(rewrite N1; exact Hn)) Hl ltac:(lia)) as (A1 & A2).
    destruct (nth_beside (o_nph o - 1) _ _ _ _ _ k s (@NaN R) X2 (proj2 (sh_ube _ Sa) ltac:(rewrite N1; exact Hn)) Hl ltac:(lia)) as (B1 & B2). auto. }
  unfold links_ok, link_ok. cbn [ma mb with_ocp mp_ocp mp_orders]. fold o. rewrite N1, N2, L1, L2. split.
  - intros H. split; intros Hn k i j Hk; destruct (H Hn k i j Hk) as (P1 & P2 & P3); pose proof (fun s => BE Hn k (i, j) s Hk) as Q; (split; [|split; [|exact P3]]).
    + intros s Hs. destruct (proj1 (Q s) Hs) as (<- & <-). apply P1. lia.
    + intros c Hc. apply P2. lia.
    + intros s Hs. destruct (proj2 (Q s)) as (<- & <-). apply (P1 (o_nx oa + s)%nat). lia.
    + intros c Hc. apply (P2 (o_nu oa + c)%nat). lia.
  - intros (H1 & H2) Hn k i j Hk. destruct (H1 Hn k i j Hk) as (P1 & P2 & P3). destruct (H2 Hn k i j Hk) as (Q1 & Q2 & _). pose proof (fun s => BE Hn k (i, j) s Hk) as Q. split; [|split; [|exact P3]].
    + rewrite E1. apply split_le. split; intros s Hs; [destruct (proj1 (Q s) Hs) as (-> & ->); exact (P1 s Hs)|destruct (proj2 (Q s)) as (-> & ->); exact (Q1 s Hs)].
    + rewrite E2. apply split_le. split; intros c Hc; [exact (P2 c Hc)|exact (Q2 c Hc)].
Qed.
End Beside.

Theorem beside_thm mp oa ob npath nterm npa nta npb ntb (z za zb p : list R) : beside (mp_ocp mp) oa ob ->
  input_ok mp npath nterm z p -> input_ok (with_ocp mp oa) npa nta za p -> input_ok (with_ocp mp ob) npb ntb zb p -> parts mp oa ob z za zb ->
  exists n na nb, nlp_at mp z p = Ok n /\ nlp_at (with_ocp mp oa) za p = Ok na /\ nlp_at (with_ocp mp ob) zb p = Ok nb /\
    n_f n = n_f na + n_f nb /\ (feasible n <-> feasible na /\ feasible nb).
Proof.
  intros Hb Hi Hia Hib HP. pose proof (in_ocp _ _ _ _ _ Hi) as Ho. pose proof (in_ocp _ _ _ _ _ Hia) as Ha. pose proof (in_ocp _ _ _ _ _ Hib) as Hbb. cbn [with_ocp mp_ocp] in Ha, Hbb.
  destruct (bs_phases _ _ _ Hb) as (N1 & N2 & _).
  destruct (nlp_like mp _ _ z p (user_traj mp z) Hi (fun ph _ => same_refl _ _)) as (rs & n & Er & En & _ & HF & HC).
  destruct (nlp_like (with_ocp mp oa) _ _ za p (user_traj mp z) Hia) as (ra & na & Era & Ena & _ & HFa & HCa).
  { intros ph Hph. cbn [with_ocp mp_ocp] in Hph. rewrite N1 in Hph. exact (proj1 (HP ph Hph)). }
  destruct (nlp_like (with_ocp mp ob) _ _ zb p (fun ph => second oa (user_traj mp z ph)) Hib) as (rb & nb & Erb & Enb & _ & HFb & HCb).
  { intros ph Hph. cbn [with_ocp mp_ocp] in Hph. rewrite N2 in Hph. exact (proj2 (HP ph Hph)). }
  assert (ra = rs) as -> by (pose proof (eq_trans (eq_sym Era) Er) as X; injection X as X; exact X).
  assert (rb = rs) as -> by (pose proof (eq_trans (eq_sym Erb) Er) as X; injection X as X; exact X).
  cbn [with_ocp mp_ocp] in HFa, HCa, HFb, HCb. rewrite N1 in HFa, HCa. rewrite N2 in HFb, HCb.
  exists n, na, nb. split; [exact En|]. split; [exact Ena|]. split; [exact Enb|]. split.
  - rewrite HC, HCa, HCb, <- Rsum_plus. apply Rsum_ext. intros ph Hph. exact (cost_app mp oa ob _ _ _ _ _ _ Hb Ho Ha Hbb ph (user_traj mp z ph) Hph rs _).
  - rewrite HF, HFa, HFb. rewrite (links_app mp oa ob _ _ _ _ _ _ Hb Ho Ha Hbb (user_traj mp z)). split.
    + intros (B & P & L1 & L2). split; (split; [|split]); auto; intros ph Hph.
      * apply (bounds_app mp oa ob _ _ _ _ _ _ Hb Ho Ha Hbb ph _ Hph), B, Hph.
      * apply (phase_app mp oa ob _ _ _ _ _ _ Hb Ho Ha Hbb ph _ Hph), P, Hph.
      * apply (bounds_app mp oa ob _ _ _ _ _ _ Hb Ho Ha Hbb ph _ Hph), B, Hph.
      * apply (phase_app mp oa ob _ _ _ _ _ _ Hb Ho Ha Hbb ph _ Hph), P, Hph.
    + intros ((B1 & P1 & L1) & (B2 & P2 & L2)). split; [|split; [|auto]]; intros ph Hph.
      * apply (bounds_app mp oa ob _ _ _ _ _ _ Hb Ho Ha Hbb ph _ Hph). auto.
      * apply (phase_app mp oa ob _ _ _ _ _ _ Hb Ho Ha Hbb ph _ Hph). split; [exact (P1 ph Hph)|exact (P2 ph Hph)].
Qed.

(** ** best points *)
Lemma parts_exist mp oa ob npa nta npb ntb (z : list R) : beside (mp_ocp mp) oa ob -> ocp_ok oa npa nta -> ocp_ok ob npb ntb -> scales_pos oa -> scales_pos ob ->
  exists za zb : list R, length za = (o_nph oa * nvars (with_ocp mp oa))%nat /\ length zb = (o_nph ob * nvars (with_ocp mp ob))%nat /\ parts mp oa ob z za zb.
Proof.
  intros Hb Ha Hbb Sa Sb. destruct (bs_phases _ _ _ Hb) as (N1 & N2 & _).
  exists (pack (with_ocp mp oa) (user_traj mp z)), (pack (with_ocp mp ob) (fun ph => second oa (user_traj mp z ph))).
  split; [exact (length_pack (with_ocp mp oa) _)|]. split; [exact (length_pack (with_ocp mp ob) _)|]. intros ph Hph. split.
  - apply (pack_traj (with_ocp mp oa)); [exact (ok_shapes _ _ _ Ha)|exact Sa|]. cbn [with_ocp mp_ocp]. rewrite N1. exact Hph.
  - apply (pack_traj (with_ocp mp ob) (fun ph => second oa (user_traj mp z ph))); [exact (ok_shapes _ _ _ Hbb)|exact Sb|]. cbn [with_ocp mp_ocp]. rewrite N2. exact Hph.
Qed.
(** a trajectory from two *)
Definition glue (oa : ocp Rnum) (y y' : utraj) : utraj :=
  Utraj (fun i s => if s <? o_nx oa then y_x y i s else y_x y' i (s - o_nx oa)%nat) (fun i c => if c <? o_nu oa then y_u y i c else y_u y' i (c - o_nu oa)%nat) (y_t0 y) (y_tf y)
    (fun i => if i <? o_na oa then y_a y i else y_a y' (i - o_na oa)%nat).
Lemma glue_parts mp oa ob npath nterm (za zb : list R) : beside (mp_ocp mp) oa ob -> ocp_ok (mp_ocp mp) npath nterm -> scales_pos (mp_ocp mp) ->
  (forall ph, (ph < o_nph (mp_ocp mp))%nat -> y_t0 (user_traj (with_ocp mp oa) za ph) = y_t0 (user_traj (with_ocp mp ob) zb ph) /\ y_tf (user_traj (with_ocp mp oa) za ph) = y_tf (user_traj (with_ocp mp ob) zb ph)) ->
  exists z : list R, length z = (o_nph (mp_ocp mp) * nvars mp)%nat /\ parts mp oa ob z za zb.
Proof.
  intros Hb Ho Hs HT. destruct (bs_dims _ _ _ Hb) as (E1 & E2 & E3). set (ys := fun ph => glue oa (user_traj (with_ocp mp oa) za ph) (user_traj (with_ocp mp ob) zb ph)).
  exists (pack mp ys). split; [exact (length_pack mp _)|]. intros ph Hph.
  destruct (pack_traj mp ys ph (ok_shapes _ _ _ Ho) Hs Hph) as (P1 & P2 & P3 & P4 & P5). destruct (HT ph Hph) as (T1 & T2).
  set (ya := user_traj (with_ocp mp oa) za ph) in *. set (yb := user_traj (with_ocp mp ob) zb ph) in *. set (y := user_traj mp (pack mp ys) ph) in *.
  assert (L : forall n s, (s < n)%nat -> (s <? n) = true) by (intros; now apply Nat.ltb_lt). assert (L' : forall n s, (n + s <? n) = false) by (intros; apply Nat.ltb_ge; lia).
  assert (M : forall n s, (n + s - n = s)%nat) by (intros; lia).
  split; (split; [|split; [|split; [|split]]]); cbn [with_ocp mp_ocp mp_orders second y_x y_u y_t0 y_tf y_a].
  - intros i s Hi Hx. rewrite (P1 i s Hi ltac:(lia)). unfold ys, glue. cbn [y_x]. rewrite L by exact Hx. reflexivity.
  - intros i s Hi Hx. rewrite (P2 i s Hi ltac:(lia)). unfold ys, glue. cbn [y_u]. rewrite L by exact Hx. reflexivity.
  - symmetry. exact P3.
  - symmetry. exact P4.
  - intros i Hi. rewrite (P5 i ltac:(lia)). unfold ys, glue. cbn [y_a]. rewrite L by exact Hi. reflexivity.
  - intros i s Hi Hx. rewrite (P1 i (o_nx oa + s)%nat Hi ltac:(lia)). unfold ys, glue. cbn [y_x]. rewrite L', M. reflexivity.
  - intros i s Hi Hx. rewrite (P2 i (o_nu oa + s)%nat Hi ltac:(lia)). unfold ys, glue. cbn [y_u]. rewrite L', M. reflexivity.
  - rewrite <- T1. symmetry. exact P3.
  - rewrite <- T2. symmetry. exact P4.
  - intros i Hi. rewrite (P5 (o_na oa + i)%nat ltac:(lia)). unfold ys, glue. cbn [y_a]. rewrite L', M. reflexivity.
Qed.
Lemma same_ok (mp : mpo Rnum) (z p : list R) n n' : nlp_at mp z p = Ok n -> nlp_at mp z p = Ok n' -> n = n'.
Proof. intros E1 E2. pose proof (eq_trans (eq_sym E1) E2) as X. injection X as X. exact X. Qed.
Lemma input_again mp npath nterm (z z1 p : list R) : input_ok mp npath nterm z p -> length z1 = (o_nph (mp_ocp mp) * nvars mp)%nat -> input_ok mp npath nterm z1 p.
Proof. intros [A B C D E] H. constructor; auto. Qed.
(** the points that are best for the two problems are together best for both *)
Theorem beside_join mp oa ob npath nterm npa nta npb ntb (z za zb p : list R) : beside (mp_ocp mp) oa ob ->
  input_ok mp npath nterm z p -> input_ok (with_ocp mp oa) npa nta za p -> input_ok (with_ocp mp ob) npb ntb zb p -> parts mp oa ob z za zb ->
  best (with_ocp mp oa) p za -> best (with_ocp mp ob) p zb -> best mp p z.
Proof.
  intros Hb Hi Hia Hib HP (na & Ea & Fa & Ba) (nb & Eb & Fb & Bb).
  destruct (beside_thm mp oa ob _ _ _ _ _ _ z za zb p Hb Hi Hia Hib HP) as (n & na' & nb' & En & Ea' & Eb' & HC & HF).
  rewrite <- (same_ok _ _ _ _ _ Ea Ea') in *. rewrite <- (same_ok _ _ _ _ _ Eb Eb') in *.
  exists n. split; [exact En|]. split; [apply HF; split; assumption|]. intros z1 n1 L1 E1 F1.
  destruct (parts_exist mp oa ob _ _ _ _ z1 Hb (in_ocp _ _ _ _ _ Hia) (in_ocp _ _ _ _ _ Hib) (in_sc _ _ _ _ _ Hia) (in_sc _ _ _ _ _ Hib)) as (za1 & zb1 & La & Lb & HP1).
  pose proof (input_again _ _ _ _ z1 _ Hi (eq_trans L1 (in_z _ _ _ _ _ Hi))) as Hi1. pose proof (input_again _ _ _ _ za1 _ Hia La) as Hia1. pose proof (input_again _ _ _ _ zb1 _ Hib Lb) as Hib1.
  destruct (beside_thm mp oa ob _ _ _ _ _ _ z1 za1 zb1 p Hb Hi1 Hia1 Hib1 HP1) as (n1' & na1 & nb1 & En1 & Ea1 & Eb1 & HC1 & HF1).
  rewrite <- (same_ok _ _ _ _ _ E1 En1) in *. destruct (proj1 HF1 F1) as (Fa1 & Fb1).
  pose proof (Ba za1 na1 (eq_trans La (eq_sym (in_z _ _ _ _ _ Hia))) Ea1 Fa1) as X1. pose proof (Bb zb1 nb1 (eq_trans Lb (eq_sym (in_z _ _ _ _ _ Hib))) Eb1 Fb1) as X2.
  rewrite HC, HC1. apply Rplus_le_compat; assumption.
Qed.
Lemma times_fixed mp npath nterm (z z1 p : list R) n n1 : input_ok mp npath nterm z p -> input_ok mp npath nterm z1 p -> times_given (mp_ocp mp) -> nlp_at mp z p = Ok n -> nlp_at mp z1 p = Ok n1 ->
  feasible n -> feasible n1 -> forall ph, (ph < o_nph (mp_ocp mp))%nat -> y_t0 (user_traj mp z1 ph) = y_t0 (user_traj mp z ph) /\ y_tf (user_traj mp z1 ph) = y_tf (user_traj mp z ph).
Proof.
  intros Hi Hi1 HT En En1 F F1 ph Hph.
  destruct (nlp_like mp _ _ z p (user_traj mp z) Hi (fun ph _ => same_refl _ _)) as (rs & n' & _ & En' & _ & HF & _). rewrite <- (same_ok _ _ _ _ _ En En') in HF.
  destruct (nlp_like mp _ _ z1 p (user_traj mp z1) Hi1 (fun ph _ => same_refl _ _)) as (rs1 & n1' & _ & En1' & _ & HF1 & _). rewrite <- (same_ok _ _ _ _ _ En1 En1') in HF1.
  destruct (proj1 HF F) as (B & _). destruct (proj1 HF1 F1) as (B1 & _). destruct (B ph Hph) as (_ & _ & T0 & TF & _). destruct (B1 ph Hph) as (_ & _ & T01 & TF1 & _).
  destruct (HT ph Hph) as ((a & A) & (b & B')). rewrite (A _ T0), (A _ T01), (B' _ TF), (B' _ TF1). auto.
Qed.
(** with given times the parts of a best point are best for the two problems *)
Theorem beside_split mp oa ob npath nterm npa nta npb ntb (z za zb p : list R) : beside (mp_ocp mp) oa ob ->
  input_ok mp npath nterm z p -> input_ok (with_ocp mp oa) npa nta za p -> input_ok (with_ocp mp ob) npb ntb zb p -> parts mp oa ob z za zb ->
  best mp p z -> (times_given oa -> best (with_ocp mp oa) p za) /\ (times_given ob -> best (with_ocp mp ob) p zb).
Proof.
  intros Hb Hi Hia Hib HP (n & En & F & B). destruct (bs_phases _ _ _ Hb) as (N1 & N2 & _).
  destruct (beside_thm mp oa ob _ _ _ _ _ _ z za zb p Hb Hi Hia Hib HP) as (n' & na & nb & En' & Ea & Eb & HC & HF).
  rewrite <- (same_ok _ _ _ _ _ En En') in *. destruct (proj1 HF F) as (Fa & Fb).
  split; intros HT.
  - exists na. split; [exact Ea|]. split; [exact Fa|]. intros za1 na1 L1 E1 F1. pose proof (input_again _ _ _ _ za1 _ Hia (eq_trans L1 (in_z _ _ _ _ _ Hia))) as Hia1.
    pose proof (times_fixed _ _ _ za za1 p na na1 Hia Hia1 HT Ea E1 Fa F1) as T. cbn [with_ocp mp_ocp] in T.
    destruct (glue_parts mp oa ob _ _ za1 zb Hb (in_ocp _ _ _ _ _ Hi) (in_sc _ _ _ _ _ Hi)) as (z1 & Lz1 & HP1).
    { intros ph Hph. destruct (T ph ltac:(rewrite N1; exact Hph)) as (-> & ->). destruct (HP ph Hph) as ((_ & _ & A1 & A2 & _) & (_ & _ & A3 & A4 & _)). rewrite A1, A2, A3, A4. split; reflexivity. }
    destruct (beside_thm mp oa ob _ _ _ _ _ _ z1 za1 zb p Hb (input_again _ _ _ _ z1 _ Hi Lz1) Hia1 Hib HP1) as (n1 & na1' & nb' & En1 & Ea1 & Eb1 & HC1 & HF1).
    rewrite <- (same_ok _ _ _ _ _ E1 Ea1) in *. rewrite <- (same_ok _ _ _ _ _ Eb Eb1) in *.
    pose proof (B z1 n1 (eq_trans Lz1 (eq_sym (in_z _ _ _ _ _ Hi))) En1 (proj2 HF1 (conj F1 Fb))) as X. rewrite HC, HC1 in X. clear - X. nred. lra.
  - exists nb. split; [exact Eb|]. split; [exact Fb|]. intros zb1 nb1 L1 E1 F1. pose proof (input_again _ _ _ _ zb1 _ Hib (eq_trans L1 (in_z _ _ _ _ _ Hib))) as Hib1.
    pose proof (times_fixed _ _ _ zb zb1 p nb nb1 Hib Hib1 HT Eb E1 Fb F1) as T. cbn [with_ocp mp_ocp] in T.
    destruct (glue_parts mp oa ob _ _ za zb1 Hb (in_ocp _ _ _ _ _ Hi) (in_sc _ _ _ _ _ Hi)) as (z1 & Lz1 & HP1).
    { intros ph Hph. destruct (T ph ltac:(rewrite N2; exact Hph)) as (-> & ->). destruct (HP ph Hph) as ((_ & _ & A1 & A2 & _) & (_ & _ & A3 & A4 & _)). rewrite A1, A2, A3, A4. split; reflexivity. }
    destruct (beside_thm mp oa ob _ _ _ _ _ _ z1 za zb1 p Hb (input_again _ _ _ _ z1 _ Hi Lz1) Hia Hib1 HP1) as (n1 & na1 & nb1' & En1 & Ea1 & Eb1 & HC1 & HF1).
    rewrite <- (same_ok _ _ _ _ _ E1 Eb1) in *. rewrite <- (same_ok _ _ _ _ _ Ea Ea1) in *.
    pose proof (B z1 n1 (eq_trans Lz1 (eq_sym (in_z _ _ _ _ _ Hi))) En1 (proj2 HF1 (conj Fa F1))) as X. rewrite HC, HC1 in X. clear - X. nred. lra.
Qed.
