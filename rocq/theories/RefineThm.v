(** One refinement of the segment widths from a solution, and all widths the loop tries (proofs). *)
From Coq Require Import String.
From Coq Require Import Reals List Lia Lra Bool Arith.
From Coquelicot Require Import Coquelicot.
From Verif Require Import Num PyList Mat Poly Roots Colloc Ocp Transcribe Solve Hadapt Resid Refine.
From Verif Require Import Spec SpecOcp SpecSolve SpecHadapt SpecResid NumR ListR CompR MeshR BlockR CollocR DiscR NlpR NlpThm NlpMain SolveR HsolveR.
From Verif Require Import AreaR SlopeR HadaptR GridR GridThm ResidR ResidThm ResidMain RefineR.
Import ListNotations.
Open Scope R_scope.
Open Scope list_scope.

Lemma grid_ok rc mp sw ph g : mpo_ok mp -> partition (mp_nseg mp) (phase_part (mp_nseg mp) ph sw) -> grid_known g ->
  exists ts, residual_grid rc mp sw ph (Some g) = Ok (Some ts) /\ length ts = length (mp_orders mp).
Proof.
  intros Hmp Hp [<-|[<-|[<-|[]]]].
  - destruct (fixed_grid_thm rc mp sw ph Hmp Hp) as (ts & m & E & L & _). exists ts. split; [exact E|]. rewrite L. symmetry. apply (mo_len _ Hmp).
  - destruct (mid_grid_thm rc mp sw ph Hmp) as (ts & E & L & _). exists ts. split; [exact E|]. rewrite <- L. symmetry. apply map_length.
  - destruct (spectral_grid_thm rc mp sw ph Hmp) as (ts & E & L & _). exists ts. split; [exact E|]. rewrite <- (map_length (fun _ => S (r_points rc)) (mp_orders mp)), <- L. symmetry. apply map_length.
Qed.

Section Step.
Variables (rc : rcfg) (mp : mpo Rnum) (npath nterm : nat -> option nat) (z sw : list R).
Hypothesis Hin : input_ok mp npath nterm z sw.
Hypothesis Hsw : widths_ok (mp_nseg mp) (o_nph (mp_ocp mp)) sw.
Hypothesis Hnx : (1 <= o_nx (mp_ocp mp))%nat.
Variable g : string.
Hypothesis Hg : nth_error (r_grid rc) 0 = Some g.
Hypothesis Hk : grid_known g.
Let n := mp_nseg mp.
Let nph := o_nph (mp_ocp mp).

Lemma own_residuals : exists ts res, dynamics_residuals rc mp sw z None None false = Ok (ts, res) /\
  residuals_ok n nph res /\ points_ok res.
Proof.
  pose proof (in_mpo _ _ _ _ _ Hin) as Hmp. destruct Hsw as [_ Hp].
  set (G := fun ph => match residual_grid rc mp sw ph (Some g) with Ok (Some ts) => ts | _ => [] end).
  assert (HG : forall ph, (ph < nph)%nat -> residual_grid rc mp sw ph (Some g) = Ok (Some (G ph)) /\ length (G ph) = length (mp_orders mp)).
  { intros ph Hph. destruct (grid_ok rc mp sw ph g Hmp (Hp ph Hph) Hk) as (ts & E & L). unfold G. nred. rewrite E. auto. }
  set (nodes := map G (seq 0 nph)).
  assert (E : dynamics_residuals rc mp sw z None None false = dynamics_residuals rc mp sw z (Some nodes) None false).
  { apply (residuals_one_grid rc mp sw z None false g G); [exact Hg|]. intros ph Hph. apply HG; exact Hph. }
  destruct (residuals_all rc mp npath nterm z sw nodes None Hin) as (rs & ts & res & Ers & Ed & Lts & Lr & HA).
  { unfold nodes. now rewrite map_length, seq_length. }
  { intros taus Ht. apply in_map_iff in Ht. destruct Ht as (ph & <- & Hph). apply in_seq in Hph. apply HG. lia. }
  exists ts, res. split; [etransitivity; [exact E|exact Ed]|].
  assert (HB : forall r, In r res -> length r = n /\ forall m, In (Some m) r -> exists f pts, pts <> [] /\ m = state_rows mp f pts).
  { intros r Hr. destruct (In_nth _ _ [] Hr) as (ph & Hph & <-). rewrite Lr in Hph. destruct (HA ph Hph) as (_ & L & Hex & Hv).
    split; [rewrite L; apply (mo_len _ Hmp)|]. intros m Hm. destruct (In_nth_error _ _ Hm) as (k & Ek).
    assert (Hkl : (k < length (mp_orders mp))%nat) by (rewrite <- L; exact (MeshR.nth_error_lt _ _ _ Ek)).
    destruct (Hex k Hkl) as (cx & cu & Hc). destruct (HG ph Hph) as [_ Lg].
    assert (En : nth ph nodes [] = G ph).
    { unfold nodes. rewrite (nth_map_in G (seq 0 nph) ph [] 0%nat) by (rewrite seq_length; exact Hph). now rewrite seq_nth. }
    destruct (Hv k (nth k (G ph) []) cx cu) as [_ Er]; [rewrite En; apply nth_error_nth'; lia|exact Hc|].
    assert (Er' : Some (Some m) = Some (match nth k (G ph) [] with [] => None | _ :: _ => Some (state_rows mp (defect mp (width mp sw ph) ph (user_traj mp z ph) k cx cu) (nth k (G ph) [])) end)) by (etransitivity; [symmetry; exact Ek|exact Er]).
    clear Er. rename Er' into Er. destruct (nth k (G ph) []) as [|q pts]; [discriminate|].
    eexists _, (q :: pts). split; [discriminate|]. injection Er as Er. exact Er. }
  split.
  - split; [exact Lr|]. intros r Hr. destruct (HB r Hr) as [L Hm]. split; [exact L|]. intros m Hmm row Hrow.
    destruct (Hm m Hmm) as (f & pts & _ & ->). apply in_map_iff in Hrow. destruct Hrow as (q & <- & _).
    intros C. apply (f_equal (@length R)) in C. unfold vec in C. rewrite map_length, seq_length in C. cbn in C. nred. lia.
  - intros r Hr m Hm. destruct (HB r Hr) as [_ H]. destruct (H m Hm) as (f & pts & Hne & ->). destruct pts; [congruence|discriminate].
Qed.

Theorem refine_residual_ok tol method : (nph <= length tol)%nat -> method <> "equal_area"%string ->
  exists ws e, refine_by_residual rc mp tol method sw z = Ok (ws, e) /\ widths_ok n nph ws /\
  exists ts res, dynamics_residuals rc mp sw z None None false = Ok (ts, res) /\ largest (concat (map entries res)) e /\
    forall ph, (ph < nph)%nat ->
      (within_tol (nth ph tol 0) (nth ph res []) -> phase_part n ph ws = phase_part n ph sw) /\
      (~ within_tol (nth ph tol 0) (nth ph res []) ->
        (method = "merge_split"%string -> exists mx, segment_maxima (nth ph res []) mx /\
           merge_split (N := Rnum) mx (phase_part n ph sw) (nth ph tol 0) = Ok (phase_part n ph ws)) /\
        (method <> "merge_split"%string -> phase_part n ph ws = phase_part n ph sw)).
Proof.
  intros Ht Hm. destruct own_residuals as (ts & res & E & H1 & H2). pose proof (mo_nseg _ (in_mpo _ _ _ _ _ Hin)) as Hn.
  destruct (by_residual_ok method n nph sw tol res Hn Hsw H1 H2 Ht Hm) as (ws & e & Ew & Hw & K1 & K2 & Hl).
  exists ws, e. split; [unfold refine_by_residual; nred; rewrite E; cbn [bind]; exact Ew|]. split; [exact Hw|].
  exists ts, res. split; [exact E|]. split; [exact Hl|]. intros ph Hph. split; [apply (K1 ph Hph)|apply (K2 ph Hph)].
Qed.
Theorem refine_area_ok tol : (nph <= length tol)%nat -> (2 <= n)%nat -> (forall ph, (ph < nph)%nat -> 0 < nth ph tol 0) ->
  exists ws e ts res, refine_by_residual rc mp tol "equal_area" sw z = Ok (ws, e) /\ length ws = (n * nph)%nat /\
    dynamics_residuals rc mp sw z None None false = Ok (ts, res) /\ largest (concat (map entries res)) e /\
    forall ph, (ph < nph)%nat -> let part := phase_part n ph ws in
      (forall w, In w part -> 0 < w) /\ 6 / 10 < total part <= 1 /\
      (within_tol (nth ph tol 0) (nth ph res []) -> part = phase_part n ph sw) /\
      (~ within_tol (nth ph tol 0) (nth ph res []) -> let r := point_norms (nth ph res []) in
         (exists new, equal_area (N := Rnum) r n = Ok new /\
            forall k, (k < n)%nat -> nth k part 0 = 4 / 10 * nth k new 0 + 6 / 10 * nth k (phase_part n ph sw) 0) /\
         (total part = 1 <-> 0 < nth (length r - 2) r 0 + nth (length r - 1) r 0)).
Proof.
  intros Ht Hn2 Hp. destruct own_residuals as (ts & res & E & H1 & H2).
  destruct (by_area_ok "equal_area" n nph sw tol res ltac:(lia) Hsw H1 H2 Ht eq_refl Hn2 Hp) as (ws & e & Ew & Hw & K & Hl).
  exists ws, e, ts, res. split; [unfold refine_by_residual; nred; rewrite E; cbn [bind]; exact Ew|]. split; [exact Hw|].
  split; [exact E|]. split; [exact Hl|]. exact K.
Qed.

(** one phase of the control-slope refinement *)
Variables (tol lbh ubh : list R) (threshold : R).
Hypothesis Htol : (nph <= length tol)%nat.
Lemma widths_nth ph k : (k < n)%nat -> width mp sw ph k = nth k (phase_part n ph sw) 0.
Proof. intros H. unfold width, phase_part. rewrite nth_firstn_lt by exact H. rewrite nth_skipn. f_equal. fold n. nia. Qed.
Lemma phase_times ph : (ph < nph)%nat -> y_t0 (user_traj mp z ph) < y_tf (user_traj mp z ph) ->
  exists tr, trajectories mp ph z sw = Ok tr /\ length (tr_t tr) = total_nodes (mp_orders mp) /\ increasing (tr_t tr) /\
    nth 0 (tr_t tr) 0 = tr_t0 tr /\ nth (total_nodes (mp_orders mp) - 1) (tr_t tr) 0 = tr_tf tr.
Proof.
  intros Hph Hlt. pose proof (mo_len _ (in_mpo _ _ _ _ _ Hin)) as Hlo. destruct Hsw as [_ Hp]. destruct (Hp ph Hph) as (Lw & Hw & Hs).
  destruct (trajectories_ok mp npath nterm z sw ph Hin Hph) as (rs & tr & _ & Etr & _ & _ & _ & E0 & Ef & _).
  destruct (times_ok mp npath nterm z sw ph Hin Hph) as (tr' & Etr' & Hl & H0 & H1 & Hi).
  assert (tr' = tr) by (nred; congruence). subst tr'. exists tr. split; [exact Etr|]. split; [exact Hl|]. split; [|split; [exact H0|]].
  - apply Hi; [nred; rewrite E0, Ef; exact Hlt|]. intros k Hk'. rewrite Hlo in Hk'. rewrite widths_nth by exact Hk'. apply Hw, nth_In. nred. unfold n. rewrite Lw. exact Hk'.
  - apply H1. rewrite Hlo. fold n. etransitivity; [apply Rsum_ext'; intros i Hi'; apply widths_nth; exact Hi'|].
    rewrite Rsum_firstn, firstn_all2; [exact Hs|]. unfold n. nred. rewrite Lw. apply Nat.le_refl.
Qed.
Hypothesis Hgrids : forall ph, (ph < nph)%nat -> exists g', nth_error (r_grid rc) ph = Some g' /\ grid_known g'.
Hypothesis Hlb : (nph <= length lbh)%nat.
Hypothesis Hub : (nph <= length ubh)%nat.
Hypothesis Hlo : forall x, In x lbh -> 0 < x.
Hypothesis Hhi : forall x, In x ubh -> 0 < x.
Hypothesis Hn2 : (2 <= n)%nat.
Hypothesis Htimes : forall ph, (ph < nph)%nat -> y_t0 (user_traj mp z ph) < y_tf (user_traj mp z ph).

(** what the refinement of phase [ph] by control slope uses and returns *)
Definition slope_step (res : list (list (option (list (list R))))) (ph : nat) (w : list R) : Prop :=
  (within_tol (nth ph tol 0) (nth ph res []) -> w = phase_part n ph sw) /\
  (~ within_tol (nth ph tol 0) (nth ph res []) -> exists rs ts du, mapM (c_roots (mp_cf mp)) (mp_orders mp) = Ok rs /\
     node_times mp rs (width mp sw ph) (user_traj mp z ph) ts /\ local_slopes mp rs (user_traj mp z ph) du /\
     widths_by_slope (N := Rnum) (phase_part n ph sw) ts du threshold (y_t0 (user_traj mp z ph)) (y_tf (user_traj mp z ph))
       (nth ph lbh 0) (nth ph ubh 0) n = Ok w).

Lemma phase_slope_ok res ph acc e : residuals_ok n nph res -> points_ok res -> (ph < nph)%nat ->
  exists w mr, phase_by_slope rc mp tol lbh ubh threshold sw z res (acc, e) ph = Ok (acc ++ [w], Rmax e mr) /\
    length w = n /\ largest (entries (nth ph res [])) mr /\ (partition n w /\ slope_step res ph w).
Proof.
  intros Hr Hpts Hph. pose proof Hsw as [_ Hp]. pose proof (in_mpo _ _ _ _ _ Hin) as Hmp.
  assert (H1n : (1 <= n)%nat) by lia.
  pose proof Hr as [Lr Hrr]. set (rs := nth ph res []). assert (Hin' : In rs res) by (apply nth_In; lia). destruct (Hrr rs Hin') as [Lrs _].
  assert (Hne : rs <> []) by (intros C; rewrite C in Lrs; cbn in Lrs; lia).
  destruct (phase_max rs Hne (fun m Hm => non_empty n nph res Hr Hpts rs m Hin' Hm)) as (ms & mr & E1 & El & E2 & Hmr).
  unfold phase_by_slope. pose proof (at_ok res ph [] ltac:(lia)) as A. fold rs in A.
  unfold rows in *. nred. rewrite A. cbn [bind]. unfold rows in *. nred. rewrite E1. cbn [bind]. nred. rewrite E2. cbn [bind]. cbv zeta.
  assert (Hmax : (if Rltb e mr then mr else e) = Rmax e mr) by exact (nmax_R e mr). nred. rewrite Hmax.
  pose proof (at_ok tol ph 0 ltac:(lia)) as At. nred. rewrite At. cbn [bind]. rewrite widths_of_part. fold n.
  assert (Hb : mr < nth ph tol 0 <-> within_tol (nth ph tol 0) rs).
  { split.
    - intros H. pose proof (largest_nonneg _ _ Hmr). split; [|lra]. intros x Hx. destruct Hmr as [Hu _]. specialize (Hu x Hx). lra.
    - intros [H1 H2]. destruct Hmr as [_ [C|(x & Hx & C)]]; rewrite C; [exact H2|apply H1; exact Hx]. }
  unfold slope_step. fold rs.
  destruct (Rltb mr (nth ph tol 0)) eqn:Elt.
  { apply Rltb_true, Hb in Elt. eexists _, mr. split; [reflexivity|]. split; [apply (Hp ph Hph)|]. split; [exact Hmr|]. split; [apply Hp; exact Hph|].
    split; [reflexivity|]. intros C; contradiction. }
  apply Rltb_false in Elt. assert (Hnb : ~ within_tol (nth ph tol 0) rs) by (intros C; apply Hb in C; lra).
  destruct (phase_times ph Hph (Htimes ph Hph)) as (tr & Etr & Lt & Hinc & H0 & H1).
  destruct (trajectories_ok mp npath nterm z sw ph Hin Hph) as (rts & tr' & Erts & Etr' & _ & Eu & _ & E0 & Ef & _ & Ht).
  assert (tr' = tr) by (nred; congruence). subst tr'. rewrite Etr. cbn [bind].
  destruct (Hgrids ph Hph) as (g' & Eg' & Hk'). destruct (grid_ok rc mp sw ph g' Hmp (Hp ph Hph) Hk') as (taus & Et & Ltaus).
  assert (Et' : residual_grid rc mp sw ph None = Ok (Some taus)).
  { rewrite <- Et. unfold residual_grid at 1. unfold at_. rewrite Eg'. reflexivity. }
  rewrite Et'. cbn [bind]. pose proof (co_taus _ (mo_cfg _ Hmp)) as Htau.
  pose proof (time_grid_thm (tr_t tr) taus (mp_orders mp) (cf_tau0 (mp_cf mp)) (cf_tau1 (mp_cf mp)) ltac:(nred; lra) Lt Ltaus) as Eti.
  nred. rewrite Eti. cbn [bind].
  destruct (setup mp npath nterm z sw Hin) as (rts' & ap & Erts' & _ & Hseg & _).
  assert (rts' = rts) by exact (f_equal (fun r => match r with Ok t => t | _ => [] end) (eq_trans (eq_sym Erts') Erts)). subst rts'.
  destruct (comp_diff_ok (mp_cf mp) (mp_orders mp) rts 1 Hseg (or_introl eq_refl)) as (D & ED & HrD & HcD & HD). rewrite ED. cbn [bind].
  pose proof (at_ok lbh ph 0 ltac:(lia)) as Al. pose proof (at_ok ubh ph 0 ltac:(lia)) as Au. nred. rewrite Al. cbn [bind]. rewrite Au. cbn [bind].
  match goal with |- context [widths_by_slope ?a ?b ?c ?d ?t0 ?tf ?lo ?hi ?m] =>
    set (du := c); destruct (by_slope_ok a b du d t0 tf lo hi m) as (w & Ew & Hw) end.
  - exact Hn2.
  - apply Hlo, nth_In. lia.
  - apply Hhi, nth_In. lia.
  - apply Hp; exact Hph.
  - unfold du, mrows. rewrite !map_length, seq_length. nred. rewrite Lt. exact HrD.
  - apply (NoDup_nth _ 0). intros i j Hi Hj Eij. destruct (lt_eq_lt_dec i j) as [[C|C]|C]; [|exact C|]; exfalso.
    + pose proof (Hinc i j ltac:(lia)). nred. lra.
    + pose proof (Hinc j i ltac:(lia)). nred. lra.
  - intros i Hi. rewrite <- H0, <- H1. split; apply Hinc; nred; lia.
  - nred. rewrite Ew. cbn [bind]. exists w, mr. split; [reflexivity|]. split; [apply Hw|]. split; [exact Hmr|]. split; [exact Hw|].
    split; [intros C; contradiction|]. intros _. exists rts, (tr_t tr), du. split; [exact Erts|]. split; [split; [exact Lt|exact Ht]|].
    split; [|nred; rewrite <- E0, <- Ef; exact Ew].
    assert (Hrep : rep mp (unpack mp z ph) (user_traj mp z ph)) by (pose proof Hin as [I1 I2 I3 I4 I5]; eapply unpack_rep; eauto).
    split; [unfold du, mrows; rewrite !map_length, seq_length; exact HrD|].
    intros i k j Ho. pose proof (owned_lt _ _ _ _ Ho) as Hi.
    assert (Edu : nth i du [] = map Rabs (mrow (mmul D (tr_u tr)) i)).
    { unfold du, mrows. rewrite map_map. nred. rewrite (nth_map_in _ (seq 0 (nr (mmul D (tr_u tr)))) i [] 0%nat) by (rewrite seq_length; cbn [mmul nr]; nred; lia).
      rewrite seq_nth by (cbn [mmul nr]; nred; lia). apply map_ext. intros x. apply nabs_R. }
    rewrite Edu, map_length. unfold mrow. rewrite map_length, seq_length. cbn [mmul nc nr mget]. rewrite Eu. split; [exact (rp_ncU _ _ _ Hrep)|].
    intros q c Hq Hc. destruct Ho as (p & Ep & Hj & Hkj & Ei).
    assert (Hrk : nth_error rts k = Some (nth k rts [])).
    { destruct Hseg as [Hs _]. apply nth_error_nth'. destruct (mapM_inv _ _ _ Hs) as [L _]. pose proof (MeshR.nth_error_lt _ _ _ Ep); nred; lia. }
    rewrite map_map. rewrite (nth_map_in _ (seq 0 (nc (v_U (unpack mp z ph)))) q 0 0%nat) by (rewrite seq_length; pose proof (rp_ncU _ _ _ Hrep) as L; nred; lia).
    rewrite seq_nth by (pose proof (rp_ncU _ _ _ Hrep) as L; nred; lia). cbn [Nat.add]. f_equal.
    rewrite sumf_R, HcD. nred. rewrite (Rsum_ext _ _ (fun t => nth q (o_scale_u (mp_ocp mp)) 0 * (mget D i t * y_u (user_traj mp z ph) t q))).
    + rewrite Rsum_scal. f_equal. rewrite Ei. rewrite (HD k p (nth k rts []) j _ c Ep Hrk Hj Hkj Hc). symmetry. apply is_derive_unique, dform1_derive.
    + intros t Ht'. pose proof (rp_U _ _ _ Hrep t q Ht' Hq) as Eq. nred. rewrite Eq. ring.
Qed.

Theorem refine_slope_ok : exists ws e ts res, refine_by_slope rc mp tol lbh ubh threshold sw z = Ok (ws, e) /\ widths_ok n nph ws /\
  dynamics_residuals rc mp sw z None None false = Ok (ts, res) /\ largest (concat (map entries res)) e /\
  forall ph, (ph < nph)%nat -> slope_step res ph (phase_part n ph ws).
Proof.
  destruct own_residuals as (ts & res & E & Hr & Hpts).
  destruct (fold_phases n nph tol res ltac:(lia) Hr Htol _ _ (fun ph acc e Hph => phase_slope_ok res ph acc e Hr Hpts Hph)) as (ws & e & Ew & Hl & HP & He).
  exists (concat ws), e, ts, res. split; [unfold refine_by_slope; nred; rewrite E; cbn [bind]; fold nph; nred; rewrite Ew; reflexivity|].
  split; [split; [exact Hl|intros ph Hph; apply (HP ph Hph)]|]. split; [exact E|]. split; [exact He|]. intros ph Hph. apply (HP ph Hph).
Qed.
End Step.

Lemma total_repeat c m : total (repeat c m) = INR m * c.
Proof. induction m as [|m IH]; [cbn; ring|]. cbn [repeat]. unfold total in *. cbn [fold_right]. rewrite IH, S_INR. ring. Qed.
Lemma skipn_repeat {A} (c : A) m k : skipn k (repeat c m) = repeat c (m - k).
Proof. revert k; induction m as [|m IH]; intros [|k]; cbn; auto. Qed.
Lemma firstn_repeat {A} (c : A) m k : (k <= m)%nat -> firstn k (repeat c m) = repeat c k.
Proof. revert k; induction m as [|m IH]; intros [|k] H; cbn; auto; [lia|]. rewrite IH by lia. reflexivity. Qed.
Lemma equal_widths_ok (mp : mpo Rnum) : (1 <= mp_nseg mp)%nat -> widths_ok (mp_nseg mp) (o_nph (mp_ocp mp)) (Solve.equal_widths mp).
Proof.
  intros Hn. unfold Solve.equal_widths. set (n := mp_nseg mp) in *. set (nph := o_nph (mp_ocp mp)). rewrite nofnat_R. nred.
  split; [apply repeat_length|]. intros ph Hph. unfold phase_part. rewrite skipn_repeat, firstn_repeat by nia.
  assert (Hp : 0 < INR n) by (apply lt_0_INR; lia).
  split; [apply repeat_length|]. split.
  - intros w Hw. apply repeat_spec in Hw. subst w. apply Rmult_lt_0_compat; [lra|]. apply Rinv_0_lt_compat. exact Hp.
  - rewrite total_repeat. field. lra.
Qed.

(** a solution of the right length whose phases do not end before they start *)
Theorem loop_widths rc (mp : mpo Rnum) npath nterm tol lbh ubh threshold method sub E mute a n s s' r :
  let nph := o_nph (mp_ocp mp) in let H := refine_cfg rc mp tol lbh ubh threshold method sub in
  mpo_ok mp -> ocp_ok (mp_ocp mp) npath nterm -> scales_pos (mp_ocp mp) -> (1 <= o_nx (mp_ocp mp))%nat -> (1 <= nph)%nat ->
  (forall ph, (ph < nph)%nat -> exists g, nth_error (r_grid rc) ph = Some g /\ grid_known g) ->
  (nph <= length tol)%nat -> (nph <= length lbh)%nat -> (nph <= length ubh)%nat ->
  (forall x, In x (lbh ++ ubh) -> 0 < x) ->
  (forall calls v i out, e_run E calls v i = Ok out -> timed_solution mp out) ->
  (forall x, a_init a = Some x -> timed_solution mp x) ->
  (forall v, st_sw s = Some v -> widths_ok (mp_nseg mp) nph v) ->
  a_nopts a <> a_mopts a -> (a_mopts a < length (st_dicts s))%nat -> no_equal_area (call_options H a s) ->
  h_solve E mp mute H a n s = (s', r) ->
  exists new, st_calls s' = st_calls s ++ new /\
    forall c, In c new -> exists w, used_widths c = Some w /\ widths_ok (mp_nseg mp) nph w.
Proof.
  intros nph H Hmp Hok Hsc Hnx Hnph Hg Ht Hlb Hub Hpos HE Hinit Hsw Hne Hd Hsub Hr. subst nph. set (nph := o_nph (mp_ocp mp)) in *.
  destruct (Hg 0%nat ltac:(lia)) as (g & Eg & Hk).
  assert (Hin : forall sw z, widths_ok (mp_nseg mp) nph sw -> length z = (nph * nvars mp)%nat -> input_ok mp npath nterm z sw).
  { intros sw z [L _] Lz. constructor; auto. fold nph. nred. nia. }
  apply (solve_P E mp mute H (widths_ok (mp_nseg mp) nph) (timed_solution mp)) with (S := fun t => t <> "equal_area"%string) (a := a) (n := n) (r := r); auto.
  - apply equal_widths_ok, (mo_nseg _ Hmp).
  - intros sw sol w e Hn1 Hw Hq Hs. unfold H, refine_cfg in Hs. cbn [h_slope] in Hs. unfold dat in Hs.
    destruct (dget String.eqb sol "x") as [x|] eqn:Ex; [|discriminate]. cbn [bind] in Hs. destruct (Hq x Ex) as [Lx Hx].
    pose proof (mo_nseg _ Hmp) as Hns.
    destruct (refine_slope_ok rc mp npath nterm x sw (Hin sw x Hw Lx) Hw Hnx g Eg Hk tol lbh ubh threshold Ht Hg Hlb Hub) as (ws & e' & t' & r' & Er & Hws & _).
    + intros y Hy. apply Hpos, in_or_app. auto.
    + intros y Hy. apply Hpos, in_or_app. auto.
    + nred. lia.
    + exact Hx.
    + nred. rewrite Er in Hs. cbn [bind] in Hs. injection Hs as <- _. exact Hws.
  - intros sub' sw sol w e Hn1 Hw Hq Hs' Hs. unfold H, refine_cfg in Hs. cbn [h_resid] in Hs. unfold dat in Hs.
    destruct (dget String.eqb sol "x") as [x|] eqn:Ex; [|discriminate]. cbn [bind] in Hs. destruct (Hq x Ex) as [Lx Hx].
    destruct (refine_residual_ok rc mp npath nterm x sw (Hin sw x Hw Lx) Hw Hnx g Eg Hk tol sub' Ht Hs') as (ws & e' & Er & Hws & _).
    nred. rewrite Er in Hs. cbn [bind] in Hs. injection Hs as <- _. exact Hws.
  - intros Hm. destruct (Hsub Hm) as (v & Ev & Hv). nred. rewrite Ev. destruct v; try discriminate. intros C. apply Hv. now rewrite C.
Qed.
