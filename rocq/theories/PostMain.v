(** Retrieved results: statements for all objects that process_results makes (proofs). *)
From Coq Require Import String.
From Coq Require Import Reals.
From Coq Require Import List Lia Lra Bool Arith.
From Verif Require Import Num PyList Mat Poly Roots Colloc Ocp Transcribe Solve Hadapt Resid Adaptive Post
  Spec SpecOcp SpecSolve SpecHadapt SpecResid SpecAdapt SpecPost
  NumR ListR PolyR CollocR CompR CollocThm MeshR BlockR DiscR NlpR NlpThm NlpMain GuessR GridR ResidR AdaptR AdaptPh AdaptThm AdaptMain PostR PostThm PostGrid.
Import ListNotations.
Open Scope R_scope.
Open Scope list_scope.

Section Made.
Variables (mp : mpo Rnum) (sc : bool) (plots : list (list nat)) (w : nat -> nat -> R) (y : nat -> utraj) (po : post (N := Rnum)).
Hypothesis Hmade : made_by_mpopt mp sc plots w y po \/ made_by_adaptive mp sc plots w y po.
Local Notation o := (mp_ocp mp).
Local Notation orders := (mp_orders mp).

Lemma made_ok : exists npath nterm rs, mpo_ok mp /\ ocp_ok o npath nterm /\ scales_pos o /\
  mapM (c_roots (mp_cf mp)) orders = Ok rs /\ serves mp w y rs sc (nth 0 plots []) po.
Proof.
  destruct Hmade as [(rc & npath & nterm & z & p & rx & rdx & Hin & E & -> & ->)|(rc & ac & npath & nterm & z & sw & rx & rdx & Hin & E & -> & ->)].
  - destruct (base_serves rc mp npath nterm z p plots sc rx rdx po Hin E) as (rs & Ers & Hs). exists npath, nterm, rs. destruct Hin. auto.
  - destruct (adaptive_serves rc ac mp npath nterm z plots sw sc rx rdx po Hin E) as (rs & Ers & Hs). exists npath, nterm, rs. destruct Hin. auto.
Qed.

Theorem nodal_thm phases : phases_ok mp (asked plots phases) -> exists rs d, mapM (c_roots (mp_cf mp)) orders = Ok rs /\
  get_data po phases false = Ok d /\ nodal_data mp rs sc w y (asked plots phases) d.
Proof.
  intros [Hne Hin]. destruct made_ok as (npath & nterm & rs & Hmp & Hok & Hsc & Ers & Hs).
  destruct (get_nodal mp npath nterm Hok Hsc w y rs sc (nth 0 plots []) po Hs phases Hne Hin) as (d & E & Hd & _). exists rs, d. auto.
Qed.
Theorem interpolated_thm phases taus : phases_ok mp phases -> length taus = length orders -> exists rs d, mapM (c_roots (mp_cf mp)) orders = Ok rs /\
  get_interpolated_data po phases taus = Ok d /\ interpolated_data mp rs sc w y phases d taus.
Proof.
  intros [Hne Hin] Ht. destruct made_ok as (npath & nterm & rs & Hmp & Hok & Hsc & Ers & Hs).
  destruct (get_interpolated mp npath nterm Hmp Hok Hsc w y rs sc (nth 0 plots []) po Hs taus phases Ht Hne Hin) as (d & E & Hd & _). exists rs, d. auto.
Qed.
Theorem default_thm phases : phases_ok mp (asked plots phases) -> exists rs d, mapM (c_roots (mp_cf mp)) orders = Ok rs /\
  get_data po phases true = Ok d /\ interpolated_data mp rs sc w y (asked plots phases) d (default_grid mp).
Proof.
  intros [Hne Hin]. destruct made_ok as (npath & nterm & rs & Hmp & Hok & Hsc & Ers & Hs).
  destruct (get_default mp npath nterm Hmp Hok Hsc w y rs sc (nth 0 plots []) po Hs phases Hne Hin) as (d & E & Hd & _). exists rs, d. auto.
Qed.

(** ** shared points *)
Lemma time_joint rs k q : cf_tau0 (mp_cf mp) < cf_tau1 (mp_cf mp) -> length rs = length orders ->
  (forall k q r, nth_error orders k = Some q -> nth_error rs k = Some r -> good_nodes (cf_tau0 (mp_cf mp)) (cf_tau1 (mp_cf mp)) q r) ->
  nth_error orders k = Some q -> forall j, (j <= q)%nat -> exists k' j', owned orders (offset orders k + j) k' j' /\
  forall w' y', node_time (mp_cf mp) w' y' k' (nth j' (nth k' rs []) 0) = node_time (mp_cf mp) w' y' k (nth j (nth k rs []) 0).
Proof.
  intros Ht Hl Hg Eq j Hj. destruct j as [|j]; [destruct k as [|k]|].
  - exists 0%nat, 0%nat. split; [|reflexivity]. exists q. repeat split; auto; lia.
  - assert (Hk : (S k < length orders)%nat) by (apply nth_error_Some; rewrite Eq; discriminate).
    destruct (nth_error orders k) as [q'|] eqn:Eq'; [|apply nth_error_None in Eq'; lia].
    pose proof (Hg k q' (nth k rs []) Eq' ltac:(apply nth_error_nth'; lia)) as G1.
    pose proof (Hg (S k) q (nth (S k) rs []) Eq ltac:(apply nth_error_nth'; lia)) as G2.
    assert (Hq' : (1 <= q')%nat).
    { destruct q'; [|lia]. destruct G1 as (L1 & _ & A & B). rewrite A in B. nred. lra. }
    exists k, q'. split.
    + exists q'. split; [exact Eq'|]. split; [lia|]. split; [right; lia|]. rewrite Nat.add_0_r. now apply offset_S.
    + intros w' y'. destruct G1 as (_ & _ & _ & B). destruct G2 as (_ & _ & A & _). rewrite A, B, !node_time_seg by exact Ht.
      unfold seg_time, seg_start, seg_h. cbn [Rsum]. nred. field. lra.
  - exists k, (S j). split; [|reflexivity]. exists q. repeat split; auto; lia.
Qed.
Lemma made_nodes rs : mapM (c_roots (mp_cf mp)) orders = Ok rs -> mpo_ok mp /\ length rs = length orders /\
  (forall k q r, nth_error orders k = Some q -> nth_error rs k = Some r -> good_nodes (cf_tau0 (mp_cf mp)) (cf_tau1 (mp_cf mp)) q r).
Proof.
  intros E. destruct made_ok as (npath & nterm & rs' & Hmp & Hok & Hsc & Ers & Hs). assert (rs' = rs) by (nred; congruence). subst rs'.
  split; [exact Hmp|]. split; [apply Hs|]. apply (sv_good _ _ _ _ _ _ _ Hs).
Qed.
Theorem shared_thm rs phases taus dn di : mapM (c_roots (mp_cf mp)) orders = Ok rs -> length taus = length orders ->
  nodal_data mp rs sc w y phases dn -> interpolated_data mp rs sc w y phases di taus ->
  forall q ph k p i j, nth_error phases q = Some ph -> nth_error orders k = Some p ->
    (i < length (nth k taus []))%nat -> (j <= p)%nat -> nth i (nth k taus []) 0 = nth j (nth k rs []) 0 ->
    let ri := (q * count_pts taus + length (concat (firstn k taus)) + i)%nat in
    let rn := (q * total_nodes orders + (offset orders k + j))%nat in
    (forall s, (s < o_nx o)%nat -> mget (pd_x di) ri s = mget (pd_x dn) rn s) /\
    (forall c, (c < o_nu o)%nat -> mget (pd_u di) ri c = mget (pd_u dn) rn c) /\
    nth ri (pd_t di) 0 = nth rn (pd_t dn) 0.
Proof.
  intros Ers Ht (_ & _ & _ & _ & _ & Hn) (_ & _ & _ & _ & _ & Hi) q ph k p i j Hq Hp Hti Hj Etau.
  destruct (made_nodes rs Ers) as (Hmp & Hl & Hg). pose proof (co_taus _ (mo_cfg _ Hmp)) as Htau.
  assert (Hk : (k < length orders)%nat) by (apply nth_error_Some; rewrite Hp; discriminate).
  pose proof (Hg k p (nth k rs []) Hp ltac:(apply nth_error_nth'; lia)) as G.
  destruct (time_joint rs k p Htau Hl Hg Hp j Hj) as (k' & j' & Ho & Hjt).
  specialize (Hi q ph k i Hq Hk Hti). cbv zeta in Hi. destruct Hi as (X & U & T).
  destruct (Hn q ph (offset orders k + j)%nat Hq (owned_lt _ _ _ _ Ho)) as (X' & U' & T').
  pose proof (good_nodup _ _ _ _ G) as Hnd. destruct G as (Lr & _).
  intros ri rn. unfold ri, rn. split; [|split].
  - intros s Hs. destruct (interp_exists (nth k rs []) (fun j => y_x (y ph) (offset orders k + j) s) Hnd) as (c & Hc).
    rewrite (X s c Hs Hc), X' by exact Hs. f_equal. nred. rewrite Etau. destruct Hc as [_ Hc]. apply (Hc j). lia.
  - intros s Hs. destruct (interp_exists (nth k rs []) (fun j => y_u (y ph) (offset orders k + j) s) Hnd) as (c & Hc).
    rewrite (U s c Hs Hc), U' by exact Hs. f_equal. nred. rewrite Etau. destruct Hc as [_ Hc]. apply (Hc j). lia.
  - rewrite T. nred. rewrite Etau. rewrite (T' k' j' Ho). symmetry. apply Hjt.
Qed.

(** ** parameters *)
Lemma scale_pos_a (npath nterm : nat -> option nat) i : ocp_ok o npath nterm -> scales_pos o -> (i < o_na o)%nat -> 0 < nth i (o_scale_a o) 0.
Proof. intros Hok Hsc Hi. apply (sp_a _ Hsc), nth_In. rewrite (sh_sa _ (ok_shapes _ _ _ Hok)). exact Hi. Qed.
(** scaled units, or a single parameter *)
Theorem params_thm phases : phases_ok mp (asked plots phases) -> sc = true \/ o_na o = 1%nat ->
  exists dn di, get_data po phases false = Ok dn /\ get_data po phases true = Ok di /\
    params_below mp sc y (asked plots phases) (pd_a dn) /\ params_beside mp sc y (asked plots phases) (pd_a di).
Proof.
  intros [Hne Hin] Hc. destruct made_ok as (npath & nterm & rs & Hmp & Hok & Hsc & Ers & Hs).
  destruct (get_nodal mp npath nterm Hok Hsc w y rs sc (nth 0 plots []) po Hs phases Hne Hin) as (dn & En & _ & A1 & A2 & A).
  destruct (get_default mp npath nterm Hmp Hok Hsc w y rs sc (nth 0 plots []) po Hs phases Hne Hin) as (di & Ei & _ & B1 & B2 & B).
  assert (E1 : (if sc then 1%nat else o_na o) = 1%nat) by (destruct Hc as [->|Hc]; [reflexivity|destruct sc; auto]).
  assert (Ha : forall ph i, (i < o_na o)%nat -> a_entry mp y sc ph i 0 = unit_of sc (o_scale_a o) i * y_a (y ph) i).
  { intros ph i Hi. unfold a_entry, unit_of. destruct Hc as [->|Hc]; [reflexivity|]. destruct sc; [reflexivity|].
    assert (i = 0%nat) by lia. subst i. pose proof (scale_pos_a npath nterm 0 Hok Hsc Hi). field. lra. }
  exists dn, di. split; [exact En|]. split; [exact Ei|]. rewrite E1 in *. split.
  - split; [exact A1|]. split; [exact A2|]. intros q ph i Hq Hi. rewrite (A q ph i 0%nat Hq Hi) by lia. now apply Ha.
  - split; [exact B1|]. split; [rewrite B2; apply Nat.mul_1_r|]. intros q ph i Hq Hi. specialize (B q ph i 0%nat Hq Hi ltac:(lia)).
    rewrite Nat.mul_1_r, Nat.add_0_r in B. rewrite B. now apply Ha.
Qed.
(** user units: a square per phase, with the right values on its diagonal *)
Theorem params_square phases : phases_ok mp (asked plots phases) -> sc = false ->
  exists dn di, get_data po phases false = Ok dn /\ get_data po phases true = Ok di /\
    nr (pd_a dn) = (length (asked plots phases) * o_na o)%nat /\ nc (pd_a dn) = o_na o /\
    nr (pd_a di) = o_na o /\ nc (pd_a di) = (length (asked plots phases) * o_na o)%nat /\
    forall q ph i j, nth_error (asked plots phases) q = Some ph -> (i < o_na o)%nat -> (j < o_na o)%nat ->
      mget (pd_a dn) (q * o_na o + i) j = nth i (o_scale_a o) 0 * y_a (y ph) i / nth j (o_scale_a o) 0 /\
      mget (pd_a di) i (q * o_na o + j) = nth i (o_scale_a o) 0 * y_a (y ph) i / nth j (o_scale_a o) 0 /\
      (i = j -> mget (pd_a dn) (q * o_na o + i) j = y_a (y ph) i /\ mget (pd_a di) i (q * o_na o + j) = y_a (y ph) i).
Proof.
  intros [Hne Hin] Hf. destruct made_ok as (npath & nterm & rs & Hmp & Hok & Hsc & Ers & Hs).
  destruct (get_nodal mp npath nterm Hok Hsc w y rs sc (nth 0 plots []) po Hs phases Hne Hin) as (dn & En & _ & A1 & A2 & A).
  destruct (get_default mp npath nterm Hmp Hok Hsc w y rs sc (nth 0 plots []) po Hs phases Hne Hin) as (di & Ei & _ & B1 & B2 & B).
  exists dn, di. split; [exact En|]. split; [exact Ei|]. rewrite Hf in *. unfold a_entry in *.
  split; [exact A1|]. split; [exact A2|]. split; [exact B1|]. split; [exact B2|]. intros q ph i j Hq Hi Hj.
  assert (EA : mget (pd_a dn) (q * o_na o + i) j = nth i (o_scale_a o) 0 * y_a (y ph) i / nth j (o_scale_a o) 0) by (apply A; auto; lia).
  assert (EB : mget (pd_a di) i (q * o_na o + j) = nth i (o_scale_a o) 0 * y_a (y ph) i / nth j (o_scale_a o) 0) by (apply B; auto).
  split; [exact EA|]. split; [exact EB|]. intros ->. pose proof (scale_pos_a npath nterm j Hok Hsc Hj) as P. rewrite EA, EB. split; nred; field; nred; lra.
Qed.
End Made.

(** ** objects exist *)
Theorem process_ok rc (mp : mpo Rnum) plots p z sc : plots <> [] -> exists po, process_results rc mp plots p z sc false false = Ok po.
Proof. intros H. unfold process_results_by, residual_values, post_of. cbn [bind]. destruct plots as [|pl ps]; [contradiction|]. cbn. eexists. reflexivity. Qed.

(** ** residual data of the object *)
Theorem residuals_thm rc (mp : mpo Rnum) tr plots p z sc rx po : process_results_by rc mp tr plots p z sc rx true = Ok po -> exists r dx,
  po_resid po = Some r /\ dynamics_residuals_by rc mp tr p z None None false = Ok dx /\ rd_dx r = Some dx /\
  if rx then exists sx, states_residuals_by rc mp tr p z None None false = Ok sx /\ rd_x r = Some (map snd sx) else rd_x r = None.
Proof.
  unfold process_results_by, residual_values. intros E. destruct rx.
  - destruct (states_residuals_by rc mp tr p z None None false) as [sx|] eqn:Ex; [|discriminate E]. cbn [bind] in E.
    destruct (dynamics_residuals_by rc mp tr p z None None false) as [dx|] eqn:Ed; [|discriminate E]. cbn [bind] in E.
    unfold post_of, at_ in E. destruct plots as [|pl ps]; [discriminate E|]. cbn [nth_error bind] in E. inversion E; subst po.
    cbn [po_resid]. eexists _, dx. split; [reflexivity|]. cbn [rd_dx rd_x]. split; [reflexivity|]. split; [reflexivity|]. exists sx. auto.
  - cbn [bind] in E. destruct (dynamics_residuals_by rc mp tr p z None None false) as [dx|] eqn:Ed; [|discriminate E]. cbn [bind] in E.
    unfold post_of, at_ in E. destruct plots as [|pl ps]; [discriminate E|]. cbn [nth_error bind] in E. inversion E; subst po.
    cbn [po_resid]. eexists _, dx. split; [reflexivity|]. cbn [rd_dx rd_x]. auto.
Qed.
Theorem residuals_none rc (mp : mpo Rnum) tr plots p z sc rx po : process_results_by rc mp tr plots p z sc rx false = Ok po -> po_resid po = None.
Proof.
  unfold process_results_by, residual_values. intros E.
  destruct (if rx then _ else _) as [sx|]; [|discriminate E]. cbn [bind] in E.
  unfold post_of, at_ in E. destruct plots as [|pl ps]; [discriminate E|]. cbn [nth_error bind] in E. inversion E; subst po. reflexivity.
Qed.

(** ** residuals match their times *)
Lemma mapM_nth {A B} (f : A -> res B) l r i da db : mapM f l = Ok r -> (i < length l)%nat -> f (nth i l da) = Ok (nth i r db).
Proof.
  revert r i. induction l as [|a l IH]; intros r i E Hi; [cbn in Hi; lia|]. cbn [mapM] in E.
  destruct (f a) as [b|] eqn:Ea; [|discriminate E]. cbn [bind] in E. destruct (mapM f l) as [bs|] eqn:El; [|discriminate E]. cbn [bind] in E. inversion E; subst r.
  destruct i as [|i]; [exact Ea|]. cbn [nth]. apply IH; [reflexivity|cbn in Hi; lia].
Qed.
Lemma mapM_length {A B} (f : A -> res B) l r : mapM f l = Ok r -> length r = length l.
Proof. intros E. apply (mapM_inv _ _ _ E). Qed.
Lemma seg_matching (mp : mpo Rnum) sw ph it k s : dyn_residual_seg mp sw ph it k = Ok s ->
  length (sr_t s) = match sr_r s with Some m => length m | None => 0%nat end.
Proof.
  unfold dyn_residual_seg. intros E. destruct (at_ (i_taus it) k) as [taus|]; [|discriminate E]. cbn [bind] in E.
  set (n := length taus) in *. set (st := nsum _) in *.
  destruct (seg_dynamics mp ph it st n) as [fs|] eqn:Ef; [|discriminate E]. cbn [bind] in E.
  destruct (Nat.eqb_spec n 0) as [Hn|Hn]; [inversion E; reflexivity|].
  destruct (seg_factor mp sw ph it k) as [h|]; [|discriminate E]. cbn [bind] in E. inversion E; subst s; clear E. cbn [sr_t sr_r].
  rewrite map_length. unfold enumerate. rewrite combine_length, seq_length, !map_length, Nat.min_id.
  unfold seg_dynamics in Ef. pose proof (mapM_length _ _ _ Ef) as Lf. rewrite seq_length in Lf. nred. rewrite Lf.
  pose proof (mapM_nth _ _ _ (n - 1)%nat 0%nat [] Ef ltac:(rewrite seq_length; lia)) as El.
  rewrite seq_nth in El by lia. cbn [Nat.add] in El.
  assert (Hlt : (st + (n - 1) < length (i_t it))%nat).
  { destruct (le_lt_dec (length (i_t it)) (st + (n - 1))) as [Hge|Hlt]; [|exact Hlt].
    exfalso. match type of El with bind ?m _ = _ => destruct m as [t|] eqn:Ea; [|discriminate El] end.
    clear El. unfold at_ in Ea. apply nth_error_None in Hge. revert Ea. nred. rewrite Hge. intros Ea. discriminate Ea. }
  unfold slice. rewrite firstn_length, skipn_length. nred. lia.
Qed.
Lemma relative_rows mx (r r' : option (list (list R))) : relative (N := Rnum) mx r = Ok r' ->
  match r' with Some m => length m | None => 0%nat end = match r with Some m => length m | None => 0%nat end.
Proof.
  unfold relative. destruct r as [m|]; [|intros E; inversion E; reflexivity]. destruct (assert_ _); [|discriminate]. cbn [bind]. intros E. inversion E. apply map_length.
Qed.
Lemma matching_nth ts rs : length ts = length rs ->
  (forall k, (k < length ts)%nat -> length (nth k ts []) = match nth k rs None with Some m => length m | None => 0%nat end) -> matching ts rs.
Proof.
  revert rs. induction ts as [|t ts IH]; intros [|r rs] Hl H; try discriminate Hl; constructor.
  - apply (H 0%nat). cbn. lia.
  - apply IH; [cbn in Hl; lia|]. intros k Hk. apply (H (S k)). cbn. lia.
Qed.
Theorem residuals_match rc (mp : mpo Rnum) tr sw z nodes g rel ts rs : dynamics_residuals_by rc mp tr sw z nodes g rel = Ok (ts, rs) ->
  length ts = o_nph (mp_ocp mp) /\ length rs = o_nph (mp_ocp mp) /\
  forall ph, (ph < o_nph (mp_ocp mp))%nat -> length (nth ph ts []) = mp_nseg mp /\ matching (nth ph ts []) (nth ph rs []).
Proof.
  unfold dynamics_residuals_by. intros E.
  assert (F : forall l g' ts0 rs0 g2 ts1 rs1, foldM (residuals_step_by rc mp tr sw z nodes rel) l (g', ts0, rs0) = Ok (g2, ts1, rs1) ->
     length ts0 = length rs0 -> (forall ph, (ph < length ts0)%nat -> length (nth ph ts0 []) = mp_nseg mp /\ matching (nth ph ts0 []) (nth ph rs0 [])) ->
     length ts1 = (length ts0 + length l)%nat /\ length rs1 = length ts1 /\
     (forall ph, (ph < length ts1)%nat -> length (nth ph ts1 []) = mp_nseg mp /\ matching (nth ph ts1 []) (nth ph rs1 []))).
  { induction l as [|ph l IH]; intros g' ts0 rs0 g2 ts1 rs1 F Hl H.
    - cbn [foldM] in F. inversion F; subst. rewrite Nat.add_0_r. auto.
    - cbn [foldM] in F. destruct (residuals_step_by rc mp tr sw z nodes rel (g', ts0, rs0) ph) as [[[g3 ts3] rs3]|] eqn:Es; [|discriminate F]. cbn [bind] in F.
      assert (Hs : exists t r, ts3 = ts0 ++ [t] /\ rs3 = rs0 ++ [r] /\ length t = mp_nseg mp /\ matching t r).
      { unfold residuals_step_by in Es. clear -Es. revert Es.
        destruct (match nodes with Some l => _ | None => _ end) as [[g4 target]|]; [|discriminate]. cbn [bind].
        destruct (dyn_residuals_phase_by rc mp tr sw z ph target) as [segs|] eqn:Eseg; [|discriminate]. cbn [bind].
        assert (Hseg : length segs = mp_nseg mp /\ forall k s, nth_error segs k = Some s -> length (sr_t s) = match sr_r s with Some m => length m | None => 0%nat end).
        { unfold dyn_residuals_phase_by in Eseg. destruct (interpolate_phase_by rc mp tr sw z ph target) as [it|]; [|discriminate Eseg]. cbn [bind] in Eseg.
          pose proof (mapM_length _ _ _ Eseg) as L. rewrite seq_length in L. split; [exact L|]. intros k s Hk.
          assert (Hlt : (k < mp_nseg mp)%nat) by (rewrite <- L; apply nth_error_Some; rewrite Hk; discriminate).
          pose proof (mapM_nth _ _ _ k 0%nat s Eseg ltac:(rewrite seq_length; exact Hlt)) as Ek. rewrite seq_nth in Ek by exact Hlt.
          rewrite (nth_error_nth _ _ s Hk) in Ek. eapply seg_matching. exact Ek. }
        destruct Hseg as [Lseg Hseg].
        assert (Hnth : forall k, (k < length segs)%nat -> exists s, nth_error segs k = Some s).
        { intros k Hk. destruct (nth_error segs k) as [s|] eqn:Ek; [eauto|]. apply nth_error_None in Ek. lia. }
        destruct rel.
        - destruct (mapM _ segs) as [r|] eqn:Er; [|discriminate]. cbn [bind]. intros Es. inversion Es; subst. exists (map (@sr_t Rnum) segs), r.
          split; [reflexivity|]. split; [reflexivity|]. split; [rewrite map_length; exact Lseg|]. pose proof (mapM_length _ _ _ Er) as Lr.
          apply matching_nth; [rewrite map_length; symmetry; exact Lr|]. rewrite map_length. intros k Hk. destruct (Hnth k Hk) as (s & Ek).
          pose proof (mapM_nth _ _ _ k s None Er Hk) as Erk. rewrite (nth_error_nth _ _ s Ek) in Erk. apply relative_rows in Erk.
          rewrite (nth_map_in _ _ _ _ s) by exact Hk. rewrite (nth_error_nth _ _ s Ek). etransitivity; [exact (Hseg k s Ek)|]. symmetry. exact Erk.
        - cbn [bind]. intros Es. inversion Es; subst. exists (map (@sr_t Rnum) segs), (map (@sr_r Rnum) segs).
          split; [reflexivity|]. split; [reflexivity|]. split; [rewrite map_length; exact Lseg|].
          apply matching_nth; [now rewrite !map_length|]. rewrite map_length. intros k Hk. destruct (Hnth k Hk) as (s & Ek).
          rewrite !(nth_map_in _ _ _ _ s) by exact Hk. rewrite (nth_error_nth _ _ s Ek). exact (Hseg k s Ek). }
      destruct Hs as (t & r & -> & -> & Lt & Hm).
      destruct (IH _ _ _ _ _ _ F) as (L1 & L2 & H1).
      + rewrite !app_length, Hl. reflexivity.
      + intros q Hq. rewrite app_length in Hq. cbn [length] in Hq. destruct (lt_dec q (length ts0)) as [Hlt|Hge].
        * rewrite !app_nth1 by (nred; lia). apply H. exact Hlt.
        * assert (q = length ts0) by (nred; lia). subst q. rewrite app_nth2 by (nred; lia). rewrite (app_nth2 rs0) by (nred; lia).
          rewrite <- Hl, Nat.sub_diag. cbn [nth]. auto.
      + rewrite app_length in L1. cbn [length] in *. split; [nred; lia|auto]. }
  destruct (foldM _ _ _) as [[[g2 ts1] rs1]|] eqn:Ef; [|discriminate E]. cbn [bind] in E. inversion E; subst ts1 rs1.
  destruct (F _ _ _ _ _ _ _ Ef) as (L1 & L2 & H); [reflexivity|intros ph Hp; cbn in Hp; lia|]. rewrite seq_length in L1. cbn [length Nat.add] in L1.
  split; [exact L1|]. split; [nred; lia|]. intros ph Hp. apply H. nred. lia.
Qed.
