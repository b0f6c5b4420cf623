(** The error that mpopt_h_adaptive.solve records is the largest dynamics residual of the solution it
    returns (proofs). *)
From Coq Require Import String.
From Coq Require Import Reals.
From Coq Require Import List Lia Lra Bool Arith.
From Verif Require Import Num PyList Mat Poly Roots Colloc Ocp Transcribe Solve Hadapt Resid Refine Post
  Spec SpecOcp SpecSolve SpecHadapt SpecResid SpecLoop SpecPost NumR ListR NlpMain SolveR HadaptR RefineR LoopR PostMain.
Import ListNotations.
Open Scope R_scope.
Open Scope list_scope.

(** ** the error of one refinement *)
Definition sees (F : list (list R) * R -> nat -> res (list (list R) * R)) (residuals : list (list (option (list (list R))))) : Prop :=
  forall acc e ph acc' e', F (acc, e) ph = Ok (acc', e') -> exists rs ms mr, nth_error residuals ph = Some rs /\
    mapM (seg_max (N := Rnum)) rs = Ok ms /\ max_ (N := Rnum) ms = Ok mr /\ e' = Rmax e mr.
Lemma max_of e mr : (if nltb (n := Rnum) e mr then mr else e) = Rmax e mr.
Proof. destruct (nltb e mr) eqn:E; [apply Rltb_true in E; rewrite Rmax_right; lra|apply Rltb_false in E; rewrite Rmax_left; lra]. Qed.
Lemma residual_sees method n sw tol residuals : sees (phase_by_residual (N := Rnum) method n sw tol residuals) residuals.
Proof.
  intros acc e ph acc' e' E. unfold phase_by_residual in E. unfold at_ in E. destruct (nth_error residuals ph) as [rs|] eqn:Er; [|discriminate E]. cbn [bind] in E.
  destruct (mapM (seg_max (N := Rnum)) rs) as [ms|] eqn:Em; [|discriminate E]. cbn [bind] in E.
  destruct (max_ (N := Rnum) ms) as [mr|] eqn:Ex; [|discriminate E]. cbn [bind] in E. exists rs, ms, mr. split; [exact Er|]. split; [exact Em|]. split; [exact Ex|].
  rewrite <- max_of. destruct (nth_error tol ph) as [t|]; [|discriminate E]. cbn [bind] in E.
  destruct (nltb mr t); [now inversion E|].
  match type of E with bind ?m _ = _ => destruct m as [w|] end; [|discriminate E]. cbn [bind] in E.
  destruct (String.eqb method "equal_area"); [|now inversion E]. destruct (Nat.eqb _ _); [|discriminate E]. cbn [bind] in E. now inversion E.
Qed.
Lemma slope_sees rc (mp : mpo Rnum) tol lbh ubh threshold sw z residuals : sees (phase_by_slope rc mp tol lbh ubh threshold sw z residuals) residuals.
Proof.
  intros acc e ph acc' e' E. unfold phase_by_slope in E. unfold at_ at 1 in E. destruct (nth_error residuals ph) as [rs|] eqn:Er; [|discriminate E]. cbn [bind] in E.
  destruct (mapM (seg_max (N := Rnum)) rs) as [ms|] eqn:Em; [|discriminate E]. cbn [bind] in E.
  destruct (max_ (N := Rnum) ms) as [mr|] eqn:Ex; [|discriminate E]. cbn [bind] in E. exists rs, ms, mr. split; [exact Er|]. split; [exact Em|]. split; [exact Ex|].
  rewrite <- max_of. unfold at_ at 1 in E. destruct (nth_error tol ph) as [t|]; [|discriminate E]. cbn [bind] in E.
  destruct (nltb mr t); [now inversion E|].
  repeat (match type of E with bind ?m _ = _ => destruct m as [?|]; [|discriminate E] end; cbn [bind] in E).
  match type of E with match ?m with _ => _ end = _ => destruct m as [taus|]; [|discriminate E] end.
  repeat (match type of E with bind ?m _ = _ => destruct m as [?|]; [|discriminate E] end; cbn [bind] in E). now inversion E.
Qed.
Lemma phase_seen rs (ms : list R) mr : mapM (seg_max (N := Rnum)) rs = Ok ms -> max_ (N := Rnum) ms = Ok mr -> largest (entries rs) mr.
Proof.
  intros Em Ex.
  assert (Hne : rs <> []) by (intros ->; cbn in Em; injection Em as <-; discriminate Ex).
  assert (Hm : forall m, In (Some m) rs -> concat m <> []).
  { intros m Hm C. clear - Em Hm C. revert ms Em. induction rs as [|r rs IH]; intros ms Em; [destruct Hm|]. cbn [mapM] in Em. destruct Hm as [->|Hm].
    - cbn [seg_max] in Em. nred. rewrite C in Em. discriminate Em.
    - destruct (seg_max r); [|discriminate Em]. cbn [bind] in Em. destruct (mapM (seg_max (N := Rnum)) rs) as [ms'|]; [|discriminate Em]. exact (IH Hm ms' eq_refl). }
  destruct (phase_max rs Hne Hm) as (ms' & mr' & Em' & _ & Ex' & HL).
  assert (Q : ms' = ms) by exact (f_equal (fun r => match r with Ok t => t | _ => [] end) (eq_trans (eq_sym Em') Em)). subst ms'.
  assert (Q : mr' = mr) by exact (f_equal (fun r => match r with Ok t => t | _ => 0 end) (eq_trans (eq_sym Ex') Ex)). subst mr'. exact HL.
Qed.
Lemma seen_error F residuals nph acc ws e : sees F residuals -> length residuals = nph -> foldM F (seq 0 nph) (acc, 0) = Ok (ws, e) ->
  largest (concat (map entries residuals)) e.
Proof.
  intros HF Hl.
  assert (G : forall k a acc e0 ws e, (a + k <= nph)%nat -> foldM F (seq a k) (acc, e0) = Ok (ws, e) -> 
     e0 <= e /\ (forall i x, (i < k)%nat -> In x (entries (nth (a + i) residuals [])) -> Rabs x <= e) /\
     (e = e0 \/ e = 0 \/ exists i x, (i < k)%nat /\ In x (entries (nth (a + i) residuals [])) /\ e = Rabs x)).
  { clear acc ws e. induction k as [|k IH]; intros a acc e0 ws e Hk E.
    - cbn in E. injection E as <- <-. split; [lra|]. split; [intros i x Hi; lia|auto].
    - cbn [seq foldM] in E. destruct (F (acc, e0) a) as [[acc1 e1]|] eqn:E1; [|discriminate E]. cbn [bind] in E.
      destruct (HF _ _ _ _ _ E1) as (rs & ms & mr & Er & Em & Ex & ->). destruct (IH (S a) _ _ _ _ ltac:(lia) E) as (A & B & C).
      pose proof (phase_seen rs ms mr Em Ex) as (L1 & L2). pose proof (Rmax_l e0 mr). pose proof (Rmax_r e0 mr).
      assert (Er' : nth a residuals [] = rs) by (apply nth_error_nth; exact Er).
      split; [lra|]. split.
      + intros [|i] x Hi Hx; [rewrite Nat.add_0_r, Er' in Hx; specialize (L1 x Hx); nred; lra|]. apply (B i x); [lia|]. now replace (S a + i)%nat with (a + S i)%nat by lia.
      + destruct C as [C|[C|(i & x & Hi & Hx & C)]]; [|auto|right; right; exists (S i), x; split; [lia|]; split; [now replace (a + S i)%nat with (S a + i)%nat by lia|exact C]].
        destruct (Rle_dec mr e0) as [D|D]; [left; rewrite C; apply Rmax_left; exact D|]. rewrite Rmax_right in C by lra.
        destruct L2 as [L2|(x & Hx & L2)]; [right; left; lra|]. right. right. exists 0%nat, x. rewrite Nat.add_0_r, Er'. split; [lia|]. split; [exact Hx|lra]. }
  intros E. destruct (G nph 0%nat acc 0 ws e ltac:(lia) E) as (A & B & C). split.
  - intros x Hx. apply in_concat in Hx. destruct Hx as (l & Hl' & Hx). apply in_map_iff in Hl'. destruct Hl' as (rs & <- & Hrs). apply In_nth with (d := []) in Hrs. destruct Hrs as (i & Hi & <-).
    apply (B i x); [lia|exact Hx].
  - destruct C as [C|[C|(i & x & Hi & Hx & C)]]; [auto|auto|]. right. exists x. split; [|exact C]. apply in_concat. exists (entries (nth i residuals [])). split; [|exact Hx].
    apply in_map. apply nth_In. lia.
Qed.
Lemma residual_error rc (mp : mpo Rnum) tol method sw z ws e : refine_by_residual rc mp tol method sw z = Ok (ws, e) ->
  exists ts res, dynamics_residuals rc mp sw z None None false = Ok (ts, res) /\ largest (concat (map entries res)) e.
Proof.
  unfold refine_by_residual. intros E. destruct (dynamics_residuals rc mp sw z None None false) as [[ts res]|] eqn:Er; [|discriminate E]. cbn [bind] in E.
  exists ts, res. split; [reflexivity|]. destruct (residuals_match rc mp (trajectories mp) sw z None None false ts res Er) as (_ & Lr & _).
  unfold widths_by_residual in E. match type of E with bind ?m _ = _ => destruct m as [[w e']|] eqn:Ef end; [|discriminate E]. cbn [bind] in E. injection E as _ <-.
  exact (seen_error _ res _ _ _ _ (residual_sees method (mp_nseg mp) sw tol res) Lr Ef).
Qed.
Lemma slope_error rc (mp : mpo Rnum) tol lbh ubh threshold sw z ws e : refine_by_slope rc mp tol lbh ubh threshold sw z = Ok (ws, e) ->
  exists ts res, dynamics_residuals rc mp sw z None None false = Ok (ts, res) /\ largest (concat (map entries res)) e.
Proof.
  unfold refine_by_slope. intros E. destruct (dynamics_residuals rc mp sw z None None false) as [[ts res]|] eqn:Er; [|discriminate E]. cbn [bind] in E.
  exists ts, res. split; [reflexivity|]. destruct (residuals_match rc mp (trajectories mp) sw z None None false ts res Er) as (_ & Lr & _).
  match type of E with bind ?m _ = _ => destruct m as [[w e']|] eqn:Ef end; [|discriminate E]. cbn [bind] in E. injection E as _ <-.
  exact (seen_error _ res _ _ _ _ (slope_sees rc mp tol lbh ubh threshold sw z res) Lr Ef).
Qed.

(** ** the run *)
Section Run.
Variables (rc : rcfg) (mp : mpo Rnum) (tol lbh ubh : list R) (threshold : R) (method sub : string).
Let H := refine_cfg rc mp tol lbh ubh threshold method sub.
Lemma rule_error options w sol next err : mp_nseg mp <> 1%nat -> refines options -> rule mp H options w sol = Ok (next, err) ->
  exists z ts res e, dget String.eqb sol "x"%string = Some z /\ dynamics_residuals rc mp w z None None false = Ok (ts, res) /\
    largest (concat (map entries res)) e /\ err = Some e.
Proof.
  intros Hn (m & Em & Hm) E. unfold rule in E. destruct (Nat.eqb_spec (mp_nseg mp) 1); [contradiction|]. nred. rewrite Em in E.
  assert (K : forall (f : list R -> res (list R * R)), (x <- dat String.eqb sol "x"%string ;; '(w0, e) <- f x ;; Ok (w0, Some e)) = Ok (next, err) ->
    exists z e, dget String.eqb sol "x"%string = Some z /\ f z = Ok (next, e) /\ err = Some e).
  { intros f Ef. unfold dat in Ef. destruct (dget String.eqb sol "x"%string) as [z|]; [|discriminate Ef]. cbn [bind] in Ef.
    destruct (f z) as [[w0 e]|] eqn:Ez; [|discriminate Ef]. cbn [bind] in Ef. injection Ef as -> <-. exists z, e. auto. }
  destruct (String.eqb_spec m "control_slope") as [->|N1].
  - destruct (K _ E) as (z & e & Ez & Ef & ->). destruct (slope_error _ _ _ _ _ _ _ _ _ _ Ef) as (ts & res & A & B). exists z, ts, res, e. auto.
  - destruct Hm as [Hm|Hm]; [contradiction|]. rewrite Hm in E. cbn [String.eqb Ascii.eqb Bool.eqb] in E.
    destruct (K _ E) as (z & e & Ez & Ef & ->). destruct (residual_error _ _ _ _ _ _ _ _ Ef) as (ts & res & A & B). exists z, ts, res, e. auto.
Qed.
Theorem reported_error E mute a n s s' sol : a_nopts a <> a_mopts a -> (a_mopts a < length (st_dicts s))%nat ->
  mp_nseg mp <> 1%nat -> refines (call_options H a s) -> h_solve E mp mute H a n s = (s', Ok sol) ->
  exists w z ts res e pre, st_sw s' = Some w /\ dget String.eqb sol "x"%string = Some z /\
    dynamics_residuals rc mp w z None None false = Ok (ts, res) /\ largest (concat (map entries res)) e /\
    st_info s' = pre ++ [(st_iter s', Some e)].
Proof.
  intros H1 H2 Hn Hr Hs. destruct (solve_stops E mp mute H a n s s' sol H1 H2 Hs) as (w & e & St & [(Hc & Ha & _ & Hi & Hk & Hw)|(_ & l & new & Hl & _ & _ & Hi & Hk & pre & x & El & -> & Hw)]).
  - unfold start in St. rewrite Ha in St. destruct (rule_error _ _ _ _ _ Hn Hr St) as (z & ts & res & v & Ez & Er & HL & ->).
    eexists _, z, ts, res, v, []. split; [exact Hw|]. split; [exact Ez|]. split; [exact Er|]. split; [exact HL|]. rewrite Hi, Hk. reflexivity.
  - pose proof (rf_rule _ _ _ _ _ Hl x ltac:(rewrite El; apply in_or_app; cbn; auto)) as Rx. destruct (rule_error _ _ _ _ _ Hn Hr Rx) as (z & ts & res & v & Ez & Er & HL & Ev).
    exists (rd_widths x), z, ts, res, v, (numbered 1 pre). split; [exact Hw|]. split; [exact Ez|]. split; [exact Er|]. split; [exact HL|].
    rewrite Hi, Hk, El. change (combine (seq 1 (length (pre ++ [x]))) (map rd_err (pre ++ [x]))) with (numbered 1 (pre ++ [x])). rewrite numbered_app, Ev, app_length. cbn [length]. rewrite Nat.add_comm. reflexivity.
Qed.
Theorem tolerance_met E mute a n s s' sol : a_nopts a <> a_mopts a -> (a_mopts a < length (st_dicts s))%nat ->
  mp_nseg mp <> 1%nat -> refines (call_options H a s) -> h_solve E mp mute H a n s = (s', Ok sol) ->
  forall pre k e, st_info s' = pre ++ [(k, e)] -> converged tol e ->
  exists w z ts res, st_sw s' = Some w /\ dget String.eqb sol "x"%string = Some z /\
    dynamics_residuals rc mp w z None None false = Ok (ts, res) /\
    forall rs r t, In rs res -> In r (entries rs) -> In t tol -> Rabs r < t.
Proof.
  intros H1 H2 Hn Hr Hs pre k e Ei (v & Ev & Hv). destruct (reported_error E mute a n s s' sol H1 H2 Hn Hr Hs) as (w & z & ts & res & e' & pre' & A & B & C & [D _] & F).
  pose proof (eq_trans (eq_sym Ei) F) as X. apply app_inj_tail in X. destruct X as [_ X]. injection X as _ X.
  exists w, z, ts, res. split; [exact A|]. split; [exact B|]. split; [exact C|]. intros rs r t Hrs Hx Ht.
  assert (v = e') by (pose proof (eq_trans (eq_sym Ev) X) as Y; injection Y as Y; exact Y). subst v.
  apply Rle_lt_trans with e'; [|apply Hv, Ht]. apply D. apply in_concat. exists (entries rs). split; [apply in_map, Hrs|exact Hx].
Qed.
End Run.
