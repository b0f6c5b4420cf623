(** Residual data of retrieved results: it is made for every known type of grid (proofs). *)
From Coq Require Import String.
From Coq Require Import Reals.
From Coq Require Import List Lia Lra Bool Arith.
From Verif Require Import Num PyList Mat Poly Roots Colloc Ocp Transcribe Solve Hadapt Resid Adaptive Post
  Spec SpecOcp SpecSolve SpecHadapt SpecResid SpecAdapt SpecPost
  NumR ListR PolyR CollocR CompR MeshR GridR GridThm ResidThm ResidMain RefineThm PostMain.
Import ListNotations.
Open Scope R_scope.
Open Scope list_scope.

Lemma incr_nodup (l : list R) : increasing l -> NoDup l.
Proof.
  intros H. apply (NoDup_nth l 0). intros i j Hi Hj E.
  destruct (lt_eq_lt_dec i j) as [[Hl|]|Hl]; [|assumption|]; [pose proof (H i j ltac:(lia))|pose proof (H j i ltac:(lia))]; lra.
Qed.
Lemma nodup_app {A} (a b : list A) : NoDup (a ++ b) -> NoDup a /\ NoDup b.
Proof.
  induction a as [|x a IH]; cbn; intros H; [split; [constructor|exact H]|]. apply NoDup_cons_iff in H. destruct H as [H1 H2].
  destruct (IH H2) as [A1 A2]. split; [|exact A2]. constructor; [|exact A1]. intros C. apply H1, in_or_app. auto.
Qed.
Lemma nodup_in_concat {A} (ls : list (list A)) l : NoDup (concat ls) -> In l ls -> NoDup l.
Proof.
  induction ls as [|a ls IH]; intros H Hi; [destruct Hi|]. cbn in H. destruct Hi as [->|Hi].
  - now apply nodup_app in H.
  - apply IH; auto. now apply nodup_app in H.
Qed.
Lemma mapM_In {A B} (f : A -> res B) l r b : mapM f l = Ok r -> In b r -> exists a, In a l /\ f a = Ok b.
Proof.
  revert r. induction l as [|a l IH]; intros r E Hb; cbn [mapM] in E; [inversion E; subst; destruct Hb|].
  destruct (f a) as [b'|] eqn:Ea; [|discriminate E]. cbn [bind] in E. destruct (mapM f l) as [bs|] eqn:El; [|discriminate E]. cbn [bind] in E. inversion E; subst r.
  destruct Hb as [->|Hb]; [exists a; cbn; auto|]. destruct (IH _ eq_refl Hb) as (a' & Ha & E'). exists a'. cbn. auto.
Qed.
Lemma grid_nodup rc mp sw ph g : mpo_ok mp -> partition (mp_nseg mp) (phase_part (mp_nseg mp) ph sw) -> grid_known g ->
  exists ts, residual_grid rc mp sw ph (Some g) = Ok (Some ts) /\ length ts = length (mp_orders mp) /\ forall pts, In pts ts -> NoDup pts.
Proof.
  intros Hmp Hp Hg. destruct (grid_ok rc mp sw ph g Hmp Hp Hg) as (ts & E & L). exists ts. split; [exact E|]. split; [exact L|].
  destruct Hg as [<-|[<-|[<-|[]]]].
  - destruct (fixed_grid_thm rc mp sw ph Hmp Hp) as (ts' & m & E' & L' & _ & _ & _ & Hpos). rewrite E in E'. injection E' as <-.
    assert (Hn : NoDup (positions (cf_tau0 (mp_cf mp)) (cf_tau1 (mp_cf mp)) (phase_part (mp_nseg mp) ph sw) ts)).
    { rewrite Hpos. set (n := (fixed_count rc mp - 1)%nat) in *.
      assert (Hn : (1 <= n)%nat) by (unfold n, fixed_count; lia). assert (Hn0 : 0 < INR n) by (apply lt_0_INR; lia).
      apply FinFun.Injective_map_NoDup.
      - intros a b H. apply INR_eq. apply (f_equal (fun v => v * INR n)) in H. replace (INR a / INR n * INR n) with (INR a) in H by (field; lra).
        replace (INR b / INR n * INR n) with (INR b) in H by (field; lra). exact H.
      - destruct m as [|m]; [apply seq_NoDup|]. cbn [Nat.sub]. rewrite Nat.sub_0_r.
        assert (D : forall l1 l2 : list nat, NoDup l1 -> NoDup l2 -> (forall a, In a l1 -> ~ In a l2) -> NoDup (l1 ++ l2)).
        { induction l1 as [|a l1 IH]; intros l2 H1 H2 H; [exact H2|]. inversion H1; subst. cbn. constructor.
          - intros C. apply in_app_or in C. destruct C as [C|C]; [contradiction|]. apply (H a); cbn; auto.
          - apply IH; auto. intros b Hb. apply H. now right. }
        apply D; try apply seq_NoDup. intros a Ha Hb. apply in_seq in Ha, Hb. lia. }
    intros pts Hin. destruct (In_nth _ _ [] Hin) as (k & Hk & <-). unfold positions in Hn.
    assert (Hk' : NoDup (map (position (cf_tau0 (mp_cf mp)) (cf_tau1 (mp_cf mp)) (phase_part (mp_nseg mp) ph sw) k) (nth k ts []))).
    { apply (nodup_in_concat _ _ Hn). apply in_map_iff. exists k. split; [reflexivity|]. apply in_seq. nred. lia. }
    eapply NoDup_map_inv. exact Hk'.
  - unfold residual_grid in E. cbn [bind String.eqb Ascii.eqb Bool.eqb] in E. match type of E with bind ?m _ = _ => destruct m as [ts'|] eqn:Em; [|discriminate E] end.
    cbn [bind] in E. injection E as ->. intros pts Hin. destruct (mapM_In _ _ _ _ Em Hin) as (q & Hq & Eq).
    destruct (c_roots_good (mp_cf mp) q (mo_cfg _ Hmp) (mo_pos _ Hmp q Hq)) as (r & Er & Hr). nred. rewrite Er in Eq. cbn [bind] in Eq. injection Eq as <-.
    apply incr_nodup. intros i j Hij. destruct Hr as (Lr & I & _). rewrite mid_len in Hij. rewrite !mid_nth by lia.
    pose proof (I i j ltac:(lia)). pose proof (I (S i) (S j) ltac:(lia)). nred. lra.
  - unfold residual_grid in E. cbn [bind String.eqb Ascii.eqb Bool.eqb] in E. match type of E with bind ?m _ = _ => destruct m as [ts'|] eqn:Em; [|discriminate E] end.
    cbn [bind] in E. injection E as ->. intros pts Hin. destruct (mapM_In _ _ _ _ Em Hin) as (q & Hq & Eq).
    destruct (c_roots_good (mp_cf mp) (r_points rc + 2) (mo_cfg _ Hmp) ltac:(lia)) as (r & Er & Hr). nred. rewrite Er in Eq. cbn [bind] in Eq. injection Eq as <-.
    pose proof (good_nodup _ _ _ _ Hr) as Hnd. destruct r as [|a r]; [constructor|]. cbn [tl]. apply NoDup_cons_iff in Hnd. destruct Hnd as [_ Hnd].
    unfold but_last. rewrite <- (firstn_skipn (length r - 1) r) in Hnd. now apply nodup_app in Hnd.
Qed.

(** without given points the residuals of the states are those at the grid of each phase *)
Lemma states_auto rc (mp : mpo Rnum) sw z rel (G : nat -> list (list R)) :
  (forall ph, (ph < o_nph (mp_ocp mp))%nat -> exists g, nth_error (r_grid rc) ph = Some g /\ residual_grid rc mp sw ph (Some g) = Ok (Some (G ph))) ->
  states_residuals rc mp sw z None None rel =
  states_residuals rc mp sw z (Some (seq 0 (o_nph (mp_ocp mp)))) (Some (map G (seq 0 (o_nph (mp_ocp mp))))) rel.
Proof.
  intros H. unfold states_residuals_by. apply mapM_ext. intros ph Hph. apply in_seq in Hph. destruct (H ph ltac:(lia)) as (g & Eg & Er).
  unfold states_residuals_phase_by, at_. rewrite Eg. cbn [bind]. nred. rewrite Er.
  rewrite nth_error_map, (nth_error_nth' _ 0%nat) by (rewrite seq_length; lia). rewrite seq_nth by lia. reflexivity.
Qed.

(** every solution, every known type of grid *)
Theorem process_total rc (mp : mpo Rnum) npath nterm z p plots sc rx rdx : input_ok mp npath nterm z p -> plots <> [] ->
  widths_ok (mp_nseg mp) (o_nph (mp_ocp mp)) p ->
  (forall ph, (ph < o_nph (mp_ocp mp))%nat -> exists g, nth_error (r_grid rc) ph = Some g /\ grid_known g) ->
  exists po, process_results rc mp plots p z sc rx rdx = Ok po.
Proof.
  intros Hin Hpl Hw Hg. pose proof (in_mpo _ _ _ _ _ Hin) as Hmp.
  set (G := fun ph => match nth_error (r_grid rc) ph with Some g => match residual_grid rc mp p ph (Some g) with Ok (Some t) => t | _ => [] end | None => [] end).
  assert (HG : forall ph, (ph < o_nph (mp_ocp mp))%nat -> (exists g, nth_error (r_grid rc) ph = Some g /\ residual_grid rc mp p ph (Some g) = Ok (Some (G ph))) /\
     length (G ph) = length (mp_orders mp) /\ forall pts, In pts (G ph) -> NoDup pts).
  { intros ph Hph. destruct (Hg ph Hph) as (g & Eg & Hk). destruct (grid_nodup rc mp p ph g Hmp (proj2 Hw ph Hph) Hk) as (ts & E & L & Hnd).
    assert (Eq : G ph = ts) by (unfold G; nred; rewrite Eg, E; reflexivity). rewrite Eq. split; [exists g; auto|]. auto. }
  assert (Ex : exists sx, states_residuals rc mp p z None None false = Ok sx).
  { rewrite (states_auto rc mp p z false G) by (intros ph Hph; apply HG; exact Hph).
    destruct (states_all rc mp npath nterm z p (map G (seq 0 (o_nph (mp_ocp mp)))) (seq 0 (o_nph (mp_ocp mp))) Hin) as (rs & r & _ & E & _); [..|exists r; exact E].
    - now rewrite map_length, seq_length.
    - intros taus Ht. apply in_map_iff in Ht. destruct Ht as (ph & <- & Hph). apply in_seq in Hph. apply HG. lia.
    - intros ph Hph. apply in_seq in Hph. lia. }
  assert (Ed : exists dx, dynamics_residuals rc mp p z None None false = Ok dx).
  { pose proof (sh_nph _ (ok_shapes _ _ _ (in_ocp _ _ _ _ _ Hin))) as Hn.
    destruct (Hg 0%nat ltac:(lia)) as (g & Eg & Hk).
    assert (HG' : forall ph, (ph < o_nph (mp_ocp mp))%nat -> exists ts, residual_grid rc mp p ph (Some g) = Ok (Some ts) /\ length ts = length (mp_orders mp)).
    { intros ph Hph. exact (grid_ok rc mp p ph g Hmp (proj2 Hw ph Hph) Hk). }
    set (G' := fun ph => match residual_grid rc mp p ph (Some g) with Ok (Some t) => t | _ => [] end).
    assert (HG2 : forall ph, (ph < o_nph (mp_ocp mp))%nat -> residual_grid rc mp p ph (Some g) = Ok (Some (G' ph)) /\ length (G' ph) = length (mp_orders mp)).
    { intros ph Hph. destruct (HG' ph Hph) as (ts & E & L). assert (Eq : G' ph = ts) by (unfold G'; nred; rewrite E; reflexivity). rewrite Eq. auto. }
    rewrite (residuals_one_grid rc mp p z None false g G' Eg) by (intros ph Hph; apply HG2; exact Hph).
    destruct (residuals_all rc mp npath nterm z p (map G' (seq 0 (o_nph (mp_ocp mp)))) None Hin) as (rs & ts & r & _ & E & _); [..|exists (ts, r); exact E].
    - now rewrite map_length, seq_length.
    - intros taus Ht. apply in_map_iff in Ht. destruct Ht as (ph & <- & Hph). apply in_seq in Hph. apply HG2. lia. }
  destruct Ex as (sx & Ex). destruct Ed as (dx & Ed). unfold process_results_by, residual_values. nred. rewrite Ex, Ed.
  destruct plots as [|pl ps]; [contradiction|]. destruct rx, rdx; cbn; eexists; reflexivity.
Qed.
