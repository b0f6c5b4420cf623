(** Argument plot of the residual methods (proofs). *)
From Coq Require Import String.
From Coq Require Import Reals.
From Coq Require Import List Lia Lra Bool Arith.
From Verif Require Import Num PyList Mat Poly Roots Colloc Ocp Transcribe Solve Hadapt Resid Adaptive Post Plot
  Spec SpecOcp SpecSolve SpecHadapt SpecResid SpecLoop SpecAdapt SpecPost SpecPlot NumR ListR NlpR GridR GridThm ResidR ResidMain PostR PostMain PostTotal RefineThm PostGrid PlotR PlotMain PlotThm.
Import ListNotations.
Open Scope R_scope.
Open Scope list_scope.
Local Notation canvas := (canvas (N := Rnum)).
Local Notation curve := (curve (N := Rnum)).

Lemma times_all (ts : list (list (list R))) n : length ts = n -> concat (map (times ts) (seq 0 n)) = concat (concat ts).
Proof.
  intros <-. unfold times. induction ts as [|a ts IH]; [reflexivity|]. cbn [length seq map concat nth]. rewrite concat_app. f_equal.
  rewrite <- seq_shift, map_map. exact IH.
Qed.
Lemma norms_all (rs : list (list (option (list (list R))))) n : length rs = n -> concat (map (norms rs) (seq 0 n)) = concat (map seg_norms (concat rs)).
Proof.
  intros <-. unfold norms. induction rs as [|a rs IH]; [reflexivity|]. cbn [length seq map concat nth]. rewrite map_app, concat_app. f_equal.
  rewrite <- seq_shift, map_map. exact IH.
Qed.
(** all phases are drawn if there is one, or if all segments have the same number of points *)
Lemma all_drawn ts rs n q (s : canvas) : length ts = S n -> length rs = S n ->
  (forall ph, (ph < S n)%nat -> nth ph ts [] <> [] /\ matching (nth ph ts []) (nth ph rs []) /\ length (nth ph ts []) = q) ->
  (n = 0%nat \/ exists m, forall p, In p ts -> level m p) ->
  plot_residuals (N := Rnum) ts rs (seq 0 (S n)) None None None (Some dots) s =
  (Canvas (N := Rnum) (S (cs_figs s)) (cs_curves s ++ norm_curves (Axis (S (cs_figs s)) 1 1 1) ts rs), Ok (Some (S (cs_figs s)), AxOne (Axis (S (cs_figs s)) 1 1 1))).
Proof.
  intros Lt Lr H Hn.
  assert (P : forall ph, (ph < S n)%nat -> present ts rs ph).
  { intros ph Hph. destruct (H ph Hph) as (A & B & _). split; [lia|]. split; [lia|]. auto. }
  assert (T : length (concat (concat ts)) = length (concat (map seg_norms (concat rs)))).
  { rewrite <- (times_all ts (S n) Lt), <- (norms_all rs (S n) Lr).
    assert (K : forall ph, In ph (seq 0 (S n)) -> length (times ts ph) = length (norms rs ph)) by (intros ph Hph; apply in_seq in Hph; apply matching_lengths, P; lia).
    clear - K. induction (seq 0 (S n)) as [|ph l IH]; cbn [map concat]; [reflexivity|]. rewrite !app_length, IH by (intros; apply K; now right). rewrite K by (now left). reflexivity. }
  unfold dots, norm_curves. rewrite (norms_drawn ts rs (seq 0 (S n)) (concat (concat ts)) (concat (map seg_norms (concat rs))) None "." s); [reflexivity| |exact T].
  rewrite <- (times_all ts (S n) Lt), <- (norms_all rs (S n) Lr). destruct Hn as [E|(m & U)].
  - subst n. cbn [seq map concat]. rewrite !app_nil_r. apply sort_single. apply P. lia.
  - apply (sort_uniform ts rs m q 0 (seq 1 n)). intros ph Hph. assert (Hb : (ph < S n)%nat) by (destruct Hph as [E|Hph]; [subst; lia|apply in_seq in Hph; lia]).
    split; [apply P; exact Hb|]. split; [|apply H; exact Hb]. intros t Ht. apply (U (nth ph ts [])); [apply nth_In; lia|exact Ht].
Qed.
Lemma all_refused ts rs n q (s : canvas) : length ts = S (S n) -> length rs = S (S n) ->
  (forall ph, (ph < S (S n))%nat -> nth ph ts [] <> [] /\ matching (nth ph ts []) (nth ph rs []) /\ length (nth ph ts []) = q) ->
  (forall p m, In p ts -> ~ level m p) -> length (concat (nth 0 ts [])) <> q ->
  plot_residuals (N := Rnum) ts rs (seq 0 (S (S n))) None None None (Some dots) s = (Canvas (N := Rnum) (S (cs_figs s)) (cs_curves s), Raise ValueError).
Proof.
  intros Lt Lr H U Hq. apply norms_refused. apply (sort_ragged ts rs 0 1 (seq 2 n) q); [|exact Hq].
  intros ph Hph. assert (Hb : (ph < S (S n))%nat) by (destruct Hph as [E|[E|Hph]]; [subst; lia|subst; lia|apply in_seq in Hph; lia]).
  destruct (H ph Hb) as (A & B & C). split; [split; [lia|split; [lia|auto]]|]. split; [|exact C]. intros m K. apply (U (nth ph ts []) m); [apply nth_In; lia|exact K].
Qed.

(** ** dynamics *)
Theorem dynamics_drawn_thm rc (mp : mpo Rnum) sw z nodes gt rel ts rs (s : canvas) : (0 < o_nph (mp_ocp mp))%nat -> (0 < mp_nseg mp)%nat ->
  dynamics_residuals rc mp sw z nodes gt rel = Ok (ts, rs) ->
  (o_nph (mp_ocp mp) = 1%nat \/ exists m, forall p, In p ts -> level m p) ->
  dynamics_drawn rc mp sw z nodes gt rel None None s =
  (Canvas (N := Rnum) (S (cs_figs s)) (cs_curves s ++ norm_curves (Axis (S (cs_figs s)) 1 1 1) ts rs), Ok (ts, rs)).
Proof.
  intros Hph Hseg E Hl. destruct (residuals_match rc mp (trajectories mp) sw z nodes gt rel ts rs E) as (Lt & Lr & H).
  unfold dynamics_drawn_by. unfold dbind at 1, dlift at 1. nred. rewrite E. cbn [fst snd].
  destruct (o_nph (mp_ocp mp)) as [|n] eqn:En; [lia|].
  unfold dbind at 1. rewrite (all_drawn ts rs n (mp_nseg mp) s Lt Lr); [reflexivity| |].
  - intros ph Hp. destruct (H ph Hp) as (A & B). split; [intros C; rewrite C in A; cbn in A; lia|]. auto.
  - destruct Hl as [Hl|Hl]; [left; lia|now right].
Qed.
Theorem dynamics_refused_thm rc (mp : mpo Rnum) sw z nodes gt rel ts rs (s : canvas) : (1 < o_nph (mp_ocp mp))%nat -> (0 < mp_nseg mp)%nat ->
  dynamics_residuals rc mp sw z nodes gt rel = Ok (ts, rs) ->
  (forall p m, In p ts -> ~ level m p) -> length (concat (nth 0 ts [])) <> mp_nseg mp ->
  dynamics_drawn rc mp sw z nodes gt rel None None s = (Canvas (N := Rnum) (S (cs_figs s)) (cs_curves s), Raise ValueError).
Proof.
  intros Hph Hseg E Hl Hq. destruct (residuals_match rc mp (trajectories mp) sw z nodes gt rel ts rs E) as (Lt & Lr & H).
  unfold dynamics_drawn_by. unfold dbind at 1, dlift at 1. nred. rewrite E. cbn [fst snd].
  destruct (o_nph (mp_ocp mp)) as [|[|n]] eqn:En; [lia|lia|].
  unfold dbind at 1. rewrite (all_refused ts rs n (mp_nseg mp) s Lt Lr); [reflexivity| |exact Hl|exact Hq].
  intros ph Hp. destruct (H ph Hp) as (A & B). split; [intros C; rewrite C in A; cbn in A; lia|]. auto.
Qed.
Lemma level_orders (p : list (list R)) os m : map (@length R) p = os -> (level m p <-> forall q, In q os -> q = m).
Proof.
  intros <-. unfold level. split.
  - intros H q Hq. apply in_map_iff in Hq. destruct Hq as (t & <- & Ht). auto.
  - intros H t Ht. apply H. apply in_map. exact Ht.
Qed.
Lemma nsum_concat (p : list (list R)) : length (concat p) = nsum (map (@length R) p).
Proof. induction p as [|t p IH]; [reflexivity|]. cbn [concat map]. rewrite app_length, IH, nsum_cons. reflexivity. Qed.
Lemma nsum_ones l : (forall q, In q l -> (1 <= q)%nat) -> (length l <= nsum l)%nat /\ (nsum l = length l -> forall q, In q l -> q = 1%nat).
Proof.
  induction l as [|a l IH]; intros H; [split; [cbn; lia|intros _ q []]|].
  destruct IH as (A & B); [intros q Hq; apply H; now right|]. pose proof (H a (or_introl eq_refl)) as Ha.
  rewrite nsum_cons. cbn [length]. split; [lia|]. intros E q [<-|Hq]; [lia|apply B; [lia|exact Hq]].
Qed.
(** lengths of the segments on the two grids *)
Lemma grid_lens rc mp g p : mpo_ok mp -> (g = "mid-points" \/ g = "spectral")%string -> exists lens (G : nat -> list (list R)),
  (forall n, In n lens -> (1 <= n)%nat) /\ length lens = mp_nseg mp /\
  (forall ph, residual_grid rc mp p ph (Some g) = Ok (Some (G ph)) /\ length (G ph) = length (mp_orders mp) /\ concat (G ph) <> [] /\ map (@length R) (G ph) = lens) /\
  (g = "mid-points"%string -> lens = mp_orders mp) /\ (g = "spectral"%string -> forall n, In n lens -> n = S (r_points rc)).
Proof.
  intros Hmp Hg. destruct (known_grid rc mp g p Hmp Hg) as (lens & G & (n0 & l0 & E) & Hpos & HG). exists lens, G. split; [exact Hpos|].
  split; [destruct (HG 0%nat) as (_ & A & B); rewrite <- B, map_length, A; apply (mo_len _ Hmp)|]. split.
  - intros ph. destruct (HG ph) as (A & B & C). split; [exact A|]. split; [exact B|]. split; [|exact C]. intros D. apply (f_equal (@length R)) in D. rewrite nsum_concat in D.
    pose proof (nsum_ones _ Hpos) as (K & _). change (list (carrier Rnum)) with (list R) in *. rewrite C in D. cbn in D. rewrite D, E in K. cbn in K. lia.
  - destruct (HG 0%nat) as (A & _ & C). split; intros Eg; subst g.
    + destruct (mid_grid_thm rc mp p 0 Hmp) as (t & Et & L & _).
      pose proof (f_equal (fun r => match r with Ok (Some t) => t | _ => [] end) (eq_trans (eq_sym A) Et)) as Q. cbv beta iota in Q. exact (eq_trans (eq_sym C) (eq_trans (f_equal (map (@length R)) Q) L)).
    + destruct (spectral_grid_thm rc mp p 0 Hmp) as (t & Et & L & _).
      pose proof (f_equal (fun r => match r with Ok (Some t) => t | _ => [] end) (eq_trans (eq_sym A) Et)) as Q. cbv beta iota in Q.
      assert (Q' : map (@length R) (G 0%nat) = map (fun _ => S (r_points rc)) (mp_orders mp)) by exact (eq_trans (f_equal (map (@length R)) Q) L).
      intros n Hn. assert (Hn' : In n (map (fun _ => S (r_points rc)) (mp_orders mp))) by (rewrite <- Q', C; exact Hn). apply in_map_iff in Hn'. destruct Hn' as (? & <- & _). reflexivity.
Qed.
Theorem solution_drawn rc mp npath nterm z p g (s : canvas) : input_ok mp npath nterm z p -> nth_error (r_grid rc) 0 = Some g -> (g = "mid-points" \/ g = "spectral")%string ->
  exists ts rs, dynamics_residuals rc mp p z None None false = Ok (ts, rs) /\
    (o_nph (mp_ocp mp) = 1%nat \/ level_grid mp g -> dynamics_drawn rc mp p z None None false None None s =
       (Canvas (N := Rnum) (S (cs_figs s)) (cs_curves s ++ norm_curves (Axis (S (cs_figs s)) 1 1 1) ts rs), Ok (ts, rs))) /\
    (~ (o_nph (mp_ocp mp) = 1%nat \/ level_grid mp g) -> dynamics_drawn rc mp p z None None false None None s =
       (Canvas (N := Rnum) (S (cs_figs s)) (cs_curves s), Raise ValueError)).
Proof.
  intros Hin Hg Hk. pose proof (in_mpo _ _ _ _ _ Hin) as Hmp. pose proof (sh_nph _ (ok_shapes _ _ _ (in_ocp _ _ _ _ _ Hin))) as Hn.
  destruct (grid_lens rc mp g p Hmp Hk) as (lens & G & Hpos & Ll & HG & Hm & Hs).
  destruct (solution_errors rc mp npath nterm z p g G Hin Hg) as (ts & rs & E & _ & Lt & HL).
  { intros ph _. destruct (HG ph) as (A & B & C & _). auto. }
  assert (HL' : forall q, In q ts -> map (@length R) q = lens).
  { intros q Hq. apply In_nth with (d := []) in Hq. destruct Hq as (ph & Hph & <-). rewrite <- (proj2 (proj2 (proj2 (HG ph)))). apply HL. rewrite <- Lt. exact Hph. }
  pose proof (mo_nseg _ Hmp) as Hseg. exists ts, rs. split; [exact E|]. split.
  - intros H. apply dynamics_drawn_thm; [lia|lia|exact E|]. destruct H as [H|[Eg|(Eg & m & H)]]; [now left|right|right].
    + exists (S (r_points rc)). intros q Hq. apply (level_orders q lens); [auto|]. apply Hs. exact Eg.
    + exists m. intros q Hq. apply (level_orders q lens); [auto|]. rewrite (Hm Eg). exact H.
  - intros H. assert (Eg : g = "mid-points"%string) by (destruct Hk as [Eg|Eg]; [exact Eg|exfalso; apply H; right; now left]). specialize (Hm Eg). subst lens.
    assert (Hne : forall m, ~ forall q, In q (mp_orders mp) -> q = m) by (intros m C; apply H; right; right; eauto).
    apply (dynamics_refused_thm rc mp p z None None false ts rs s); [|lia|exact E| |].
    + destruct (Nat.eq_dec (o_nph (mp_ocp mp)) 1); [exfalso; apply H; now left|lia].
    + intros q m Hq C. apply (Hne m). apply (level_orders q _ m (HL' q Hq)). exact C.
    + intros C. rewrite nsum_concat in C. rewrite (HL 0%nat) in C by lia. destruct (HG 0%nat) as (_ & _ & _ & L0). change (list (carrier Rnum)) with (list R) in *. rewrite L0 in C.
      apply (Hne 1%nat). apply (nsum_ones _ (mo_pos _ Hmp)). rewrite C. symmetry. apply (mo_len _ Hmp).
Qed.

(** ** states *)
Lemma of_phase_all {A} (r : list (nat * A)) n : map fst r = seq 0 n -> map (of_phase r) (seq 0 n) = map Some (map snd r).
Proof.
  intros E. assert (L : length r = n) by (rewrite <- (map_length fst), E; apply seq_length).
  apply (nth_ext _ _ None None); [rewrite !map_length, seq_length; lia|]. intros i Hi. rewrite map_length, seq_length in Hi.
  destruct (nth_error r i) as [[ph x]|] eqn:Ei; [|apply nth_error_None in Ei; lia].
  assert (ph = i).
  { pose proof (nth_error_nth _ _ 0%nat (map_nth_error fst _ _ Ei)) as Q. rewrite E, seq_nth in Q by lia. cbn in Q. congruence. } subst ph.
  rewrite (nth_indep _ _ (of_phase r 0)) by (rewrite map_length, seq_length; lia). rewrite map_nth, seq_nth by lia. cbn [plus].
  rewrite map_map. rewrite (nth_indep _ None (Some (snd (0%nat, x)))) by (rewrite map_length; lia). rewrite (map_nth (fun y => Some (snd y)) r (0%nat, x)). rewrite (nth_error_nth _ _ _ Ei). cbn [snd].
  unfold of_phase. assert (F : find (fun y : nat * A => Nat.eqb (fst y) i) (rev r) = Some (i, x)); [|cbn [Nat.add]; rewrite F; reflexivity].
  assert (U : NoDup (map fst (rev r))) by (rewrite map_rev; apply NoDup_rev; rewrite E; apply seq_NoDup).
  assert (I : In (i, x) (rev r)) by (apply -> in_rev; eapply nth_error_In; eauto).
  clear - U I. induction (rev r) as [|[j y] l IH]; [destruct I|]. cbn [find fst]. cbn [map fst] in U. inversion U as [|? ? Hn U']; subst.
  destruct I as [E|I]; [inversion E; subst; now rewrite Nat.eqb_refl|]. destruct (Nat.eqb_spec j i) as [->|_]; [|auto].
  exfalso. apply Hn. apply in_map_iff. exists (i, x). auto.
Qed.
Lemma all_some_some {A} (l : list A) : all_some (map Some l) = Some l.
Proof. induction l as [|x l IH]; [reflexivity|]. cbn. now rewrite IH. Qed.
Lemma all_some_none {A} (l : list (option A)) : In None l -> all_some l = None.
Proof. induction l as [|x l IH]; intros H; [destruct H|]. destruct H as [->|H]; [reflexivity|]. cbn. rewrite (IH H). now destruct x. Qed.
Lemma fst_states rc (mp : mpo Rnum) sw z phases nodes rel res : states_residuals rc mp sw z phases nodes rel = Ok res ->
  map fst res = match phases with Some l => l | None => seq 0 (o_nph (mp_ocp mp)) end.
Proof.
  unfold states_residuals_by. generalize (match phases with Some l => l | None => seq 0 (o_nph (mp_ocp mp)) end). intros l. revert res.
  induction l as [|ph l IH]; intros res E; cbn [mapM] in E; [inversion E; reflexivity|].
  destruct (states_residuals_phase rc mp sw z nodes rel ph) as [a|]; [|discriminate E]. cbn [bind] in E.
  match type of E with bind ?m _ = _ => destruct m as [r|] eqn:Er; [|discriminate E] end. cbn [bind] in E. inversion E; subst. cbn [map fst]. f_equal. apply IH, eq_refl.
Qed.
Theorem states_drawn_thm rc (mp : mpo Rnum) sw z nodes rel res segs (s : canvas) : (0 < o_nph (mp_ocp mp))%nat ->
  states_residuals rc mp sw z None nodes rel = Ok res -> map snd res = map (map Some) segs ->
  let ts := map (map (@ss_t Rnum)) segs in let rs := map (map (fun g => Some (@ss_r Rnum g))) segs in
  error_data (o_nx (mp_ocp mp)) ts rs -> (forall p, In p segs -> length p = mp_nseg mp) ->
  (o_nph (mp_ocp mp) = 1%nat \/ exists m, forall p, In p ts -> level m p) ->
  states_drawn rc mp sw z None nodes rel None None s =
  (Canvas (N := Rnum) (S (cs_figs s)) (cs_curves s ++ norm_curves (Axis (S (cs_figs s)) 1 1 1) ts rs), Ok res).
Proof.
  intros Hph E Es ts rs He Hlen Hl. pose proof (fst_states _ _ _ _ _ _ _ _ E) as F. cbv beta iota in F.
  assert (Lr : length res = o_nph (mp_ocp mp)) by (rewrite <- (map_length fst), F; apply seq_length).
  assert (Ls : length segs = o_nph (mp_ocp mp)) by (rewrite <- Lr, <- (map_length (map Some) segs), <- Es; apply map_length).
  unfold states_drawn_by. unfold dbind at 1, dlift at 1. nred. rewrite E.
  rewrite (of_phase_all res _ F), all_some_some, Es. rewrite map_map.
  assert (A : map (fun x => all_some (map (@Some (segstate (N := Rnum))) x)) segs = map Some segs) by (apply map_ext; intros l; apply all_some_some).
  nred. rewrite A, all_some_some. destruct (o_nph (mp_ocp mp)) as [|n] eqn:En; [lia|].
  unfold dbind at 1. fold ts rs.
  pose proof (all_drawn ts rs n (mp_nseg mp) s) as P. nred. rewrite P; [reflexivity| | | |].
  - unfold ts. rewrite map_length. exact Ls.
  - unfold rs. rewrite map_length. exact Ls.
  - destruct He as (_ & H1 & H2 & _). intros ph Hp. assert (Lt : length ts = S n) by (unfold ts; rewrite map_length; exact Ls).
    split; [apply H1, nth_In; lia|]. split.
    + clear - H2 Lt Hp. revert ph n Lt Hp. induction H2 as [|a b l l' Hab H2 IH]; intros ph n Lt Hp; [cbn in Lt; lia|].
      destruct ph as [|ph]; [exact Hab|]. destruct n as [|n]; [lia|]. apply (IH ph n); [cbn in Lt; lia|lia].
    + unfold ts. rewrite (nth_indep _ [] (map (@ss_t Rnum) [])) by (rewrite map_length; lia). rewrite map_nth, map_length. apply Hlen, nth_In. lia.
  - destruct Hl as [Hl|Hl]; [left; lia|now right].
Qed.
(** a phase that was not asked for cannot be drawn *)
Theorem states_missing_thm rc (mp : mpo Rnum) sw z l nodes rel res ph (s : canvas) : states_residuals rc mp sw z (Some l) nodes rel = Ok res ->
  (ph < o_nph (mp_ocp mp))%nat -> ~ In ph l ->
  states_drawn rc mp sw z (Some l) nodes rel None None s = (Canvas (N := Rnum) (S (cs_figs s)) (cs_curves s), Raise TypeError).
Proof.
  intros E Hph Hn. pose proof (fst_states _ _ _ _ _ _ _ _ E) as F. cbv beta iota in F.
  unfold states_drawn_by. unfold dbind at 1, dlift at 1. nred. rewrite E.
  rewrite all_some_none; [reflexivity|]. apply in_map_iff. exists ph. split; [|apply in_seq; lia].
  unfold of_phase. destruct (find _ (rev res)) as [[q x]|] eqn:Ef; [|reflexivity]. exfalso. apply find_some in Ef. destruct Ef as (Hi & Hq). apply Nat.eqb_eq in Hq. cbn in Hq. subst q.
  apply Hn. rewrite <- F. apply in_map_iff. exists (ph, x). split; [reflexivity|]. apply in_rev. exact Hi.
Qed.
(** neither can a segment without points *)
Theorem states_empty_thm rc (mp : mpo Rnum) sw z nodes rel res ph segs (s : canvas) : states_residuals rc mp sw z None nodes rel = Ok res ->
  In (ph, segs) res -> In None segs ->
  states_drawn rc mp sw z None nodes rel None None s = (Canvas (N := Rnum) (S (cs_figs s)) (cs_curves s), Raise ValueError).
Proof.
  intros E Hr Hn. pose proof (fst_states _ _ _ _ _ _ _ _ E) as F. cbv beta iota in F.
  unfold states_drawn_by. unfold dbind at 1, dlift at 1. nred. rewrite E.
  rewrite (of_phase_all res _ F), all_some_some. rewrite (all_some_none (map (@all_some _) (map snd res))); [reflexivity|].
  apply in_map_iff. exists segs. split; [apply all_some_none, Hn|]. apply in_map_iff. exists (ph, segs). auto.
Qed.
Theorem solution_states_drawn rc mp npath nterm z p g (s : canvas) : input_ok mp npath nterm z p -> widths_ok (mp_nseg mp) (o_nph (mp_ocp mp)) p ->
  same_grid rc mp g -> (g = "mid-points" \/ g = "spectral")%string -> o_nph (mp_ocp mp) = 1%nat \/ level_grid mp g ->
  exists res segs, states_residuals rc mp p z None None false = Ok res /\ map snd res = map (map Some) segs /\
    states_drawn rc mp p z None None false None None s =
    (Canvas (N := Rnum) (S (cs_figs s)) (cs_curves s ++ norm_curves (Axis (S (cs_figs s)) 1 1 1) (map (map (@ss_t Rnum)) segs) (map (map (fun g => Some (@ss_r Rnum g))) segs)), Ok res).
Proof.
  intros Hin Hw Hs Hk Hl. pose proof (in_mpo _ _ _ _ _ Hin) as Hmp. pose proof (sh_nph _ (ok_shapes _ _ _ (in_ocp _ _ _ _ _ Hin))) as Hn.
  destruct (solution_states rc mp npath nterm z p g Hin Hw Hs Hk) as (res & segs & E & Em & He & _ & HL). cbv zeta in *.
  destruct (grid_lens rc mp g p Hmp Hk) as (lens & G & Hpos & Ll & HG & Hm & Hsp).
  assert (HL' : forall q, In q (map (map (@ss_t Rnum)) segs) -> map (@length R) q = lens).
  { intros q Hq. destruct (HG 0%nat) as (A & _ & _ & B). exact (eq_trans (HL 0%nat (G 0%nat) q A Hq) B). }
  exists res, segs. split; [exact E|]. split; [exact Em|]. apply states_drawn_thm; [lia|exact E|exact Em|exact He| |].
  - intros q Hq. rewrite <- Ll, <- (HL' (map (@ss_t Rnum) q)) by (now apply in_map). rewrite !map_length. reflexivity.
  - destruct Hl as [Hl|[Eg|(Eg & m & H)]]; [now left|right|right].
    + exists (S (r_points rc)). intros q Hq. apply (level_orders q lens); [auto|]. apply Hsp. exact Eg.
    + exists m. intros q Hq. apply (level_orders q lens); [auto|]. rewrite (Hm Eg). exact H.
Qed.
