(** Problems whose programs have the same least cost on every LGR mesh (examples for C61). *)
From Coq Require Import Reals Lia Lra Psatz Bool Arith String.
From Coquelicot Require Import Coquelicot.
From Coq Require Import List.
From Verif Require Import Num PyList Mat Poly Roots Colloc Ocp Transcribe Spec SpecOcp SpecHadapt SpecBalance SpecExact SpecConvex SpecDual NumR ListR PolyR CollocR CompR CollocThm JacobiR MeshR BlockR DiscR NlpR OcpR NlpThm GuessR CostR BalanceR ScaleR NlpMain ExactR WeightR ConvexR DualR ExOcp ExNlp ExLander ExGlide.
Import ListNotations.
Open Scope R_scope.

Definition glide_v : vfun := Vfun [0; -36; 72; -48] (fun s => match s with O => [24] | _ => [12; -24] end).
Lemma glide_slower ta tb : slower glide 0 ta tb glide_v.
Proof.
  intros f g x u t a d l Hf Hg _ _ _ _ _ _ _ Ed El. cbn in Hf, Hg. injection Hf as <-. injection Hg as <-. injection Ed as <-. injection El as <-.
  cbn [glide o_nx Rsum glide_v v_c v_a nth].
  assert (D1 : Derive (peval [0; -36; 72; -48]) t = - 36 + 144 * t - 144 * (t * t)).
  { apply is_derive_unique. apply (is_derive_ext (fun t => - 36 * t + 72 * (t * t) - 48 * (t * t * t))); [intros r; cbn; ring|]. auto_derive; [exact I|]. ring. }
  assert (D2 : Derive (peval [24]) t = 0).
  { apply is_derive_unique. apply (is_derive_ext (fun t => 24)); [intros r; cbn; ring|]. auto_derive; [exact I|]. ring. }
  assert (D3 : Derive (peval [12; -24]) t = -24).
  { apply is_derive_unique. apply (is_derive_ext (fun t => 12 - 24 * t)); [intros r; cbn; ring|]. auto_derive; [exact I|]. ring. }
  nred. rewrite D1, D2, D3. cbn [peval]. pose proof (Rle_0_sqr (nth 0 u 0 - (6 - 12 * t))) as H. unfold Rsqr in H. nred. nra.
Qed.
Definition sprint_v : vfun := Vfun [0; - (1 / 4)] (fun _ => [1]).
Lemma sprint_slower ta tb : slower sprint 0 ta tb sprint_v.
Proof.
  intros f g x u t a d l Hf Hg _ _ _ _ _ _ _ Ed El. cbn in Hf, Hg. injection Hf as <-. injection Hg as <-. injection Ed as <-. injection El as <-.
  cbn [sprint o_nx Rsum sprint_v v_c v_a nth].
  assert (D1 : Derive (peval [0; - (1 / 4)]) t = - (1 / 4)).
  { apply is_derive_unique. apply (is_derive_ext (fun t => - (1 / 4) * t)); [intros r; cbn; ring|]. auto_derive; [exact I|]. ring. }
  assert (D2 : Derive (peval [1]) t = 0).
  { apply is_derive_unique. apply (is_derive_ext (fun t => 1)); [intros r; cbn; ring|]. auto_derive; [exact I|]. ring. }
  nred. rewrite D1, D2. cbn [peval]. pose proof (Rle_0_sqr (nth 0 u 0 - 1 / 2)) as H. unfold Rsqr in H. nred. nra.
Qed.

Section Mesh.
Variables (cf : ccfg Rnum) (K : nat) (orders : list nat) (p : list R).
Hypothesis Hcf : cfg_ok cf.
Hypothesis HK : (1 <= K)%nat.
Hypothesis Hlen : length orders = K.
Hypothesis Hs : cf_scheme cf = "LGR"%string.
Hypothesis Hw : widths_ok K 1 p.

Lemma lp : length p = (1 * K)%nat.
Proof. destruct Hw as [L _]. lia. Qed.
Lemma glide_least : (forall q, In q orders -> (4 <= q)%nat) -> let mp : mpo Rnum := Mpo glide K orders cf in
  (exists (z : list R) n, length z = nvars mp /\ nlp_at mp z p = Ok n /\ feasible n /\ n_f n = 12) /\
  forall z : list R, length z = nvars mp -> exists n, nlp_at mp z p = Ok n /\ (feasible n -> 12 <= n_f n).
Proof.
  intros Hq mp. assert (Hq1 : forall q, In q orders -> (1 <= q)%nat) by (intros q Hi; apply Hq in Hi; lia). split.
  - destruct (glide_point cf K orders p Hcf HK Hlen Hq1 Hw 0 ltac:(lra) Hq) as (rs & z & n & _ & Hz & _ & En & Hf & HC). exists z, n. split; [exact Hz|]. split; [exact En|]. split; [exact Hf|].
    nred. rewrite (HC Hs). ring.
  - intros z Hz. pose proof (glide_mpo cf K orders Hcf HK Hlen Hq1) as Hmp. fold mp in Hmp.
    assert (Hz1 : length z = (o_nph (mp_ocp mp) * nvars mp)%nat) by (change (o_nph (mp_ocp mp)) with 1%nat; nred; lia).
    assert (Hin : input_ok mp glide_npath glide_nterm z p) by (constructor; [exact Hmp|exact glide_ok|exact glide_scales|exact Hz1|exact lp]).
    destruct (lower_thm mp glide_npath glide_nterm z p (fun _ => glide_v) Hin Hw (or_introl Hs)) as (n & En & HL).
    + intros q Hi. apply Hq in Hi. lia.
    + intros ph q _ Hi. apply Hq in Hi. cbn. lia.
    + intros ph q [|s] _ Hi _; apply Hq in Hi; cbn; lia.
    + exists n. split; [exact En|]. intros Hf.
      destruct (nlp_at_ok mp Hmp _ _ glide_ok glide_scales z p Hz1 lp) as (rs' & n' & _ & En' & _ & _ & _ & _ & _ & _ & Hb & Hsat & _).
      assert (n' = n) as -> by (pose proof (eq_trans (eq_sym En') En) as X; injection X as X; exact X).
      pose proof (proj1 Hb (proj1 Hf)) as B. pose proof (proj1 (proj1 Hsat (proj2 Hf))) as P. specialize (B 0%nat ltac:(cbn; lia)). specialize (P 0%nat ltac:(cbn; lia)).
      destruct B as (Bx & _ & B0 & Bf & _). destruct P as (_ & _ & _ & _ & _ & Ht).
      assert (Hn0 : (0 < total_nodes (mp_orders mp))%nat) by (unfold total_nodes; lia).
      assert (T0 : y_t0 (user_traj mp z 0) = 0) by (destruct B0 as [b1 b2]; cbn in b1, b2; apply Rle_antisym; [exact b2|exact b1]).
      assert (T1 : y_tf (user_traj mp z 0) = 1) by (destruct Bf as [b1 b2]; cbn in b1, b2; apply Rle_antisym; [exact b2|exact b1]).
      assert (X0 : y_x (user_traj mp z 0) 0 0 = 0) by (exact (Bx 0%nat 0%nat Hn0 ltac:(cbn; lia))).
      assert (X1 : y_x (user_traj mp z 0) 0 1 = 0) by (exact (Bx 0%nat 1%nat Hn0 ltac:(cbn; lia))).
      assert (X2 : y_x (user_traj mp z 0) (total_nodes (mp_orders mp) - 1) 0 - 1 = 0) by (apply Ht; left; reflexivity).
      assert (X3 : y_x (user_traj mp z 0) (total_nodes (mp_orders mp) - 1) 1 = 0) by (apply Ht; right; left; reflexivity).
      assert (LB := HL Hf). clear HL. eapply Rle_trans; [|apply LB].
      * change (o_nph (mp_ocp mp)) with 1%nat. cbn [Rsum]. unfold bound, value. change (o_nx (mp_ocp mp)) with 2%nat. cbn [Rsum glide_v v_c v_a].
        change (mayer_val (mp_ocp mp) 0 (user_traj mp z 0) (total_nodes (mp_orders mp) - 1)) with 0. rewrite T0, T1, X0, X1, X3. cbn [peval]. nred. lra.
      * intros ph Hph. cbn in Hph. assert (ph = 0)%nat as -> by lia. rewrite T0, T1. lra.
      * intros ph Hph. cbn in Hph. assert (ph = 0)%nat as -> by lia. apply glide_slower.
Qed.
(** the end time is free here *)
Lemma sprint_least : (forall q, In q orders -> (2 <= q)%nat) -> let mp : mpo Rnum := Mpo sprint K orders cf in
  (exists (z : list R) n, length z = nvars mp /\ nlp_at mp z p = Ok n /\ feasible n /\ n_f n = 1 / 2) /\
  forall z : list R, length z = nvars mp -> exists n, nlp_at mp z p = Ok n /\ (feasible n -> 1 / 2 <= n_f n).
Proof.
  intros Hq mp. assert (Hmp : mpo_ok mp) by (constructor; cbn; auto; intros q Hi; apply Hq in Hi; lia). split.
  - destruct (exact_thm mp (fun _ => None) sprint_nterm p (fun _ => sprinting (1 / 2)) Hmp sprint_ok sprint_scales Hw) as (rs & _ & (z & Hz & Hsm) & HE).
    + intros [|[|ph]]; split; reflexivity.
    + intros ph Hph. cbn in Hph. assert (ph = 0)%nat as -> by lia. apply sprinting_solves. lra.
    + intros k i j H. destruct k; discriminate H.
    + intros ph _ q Hi. apply Hq in Hi. split; intros s _; cbn; lia.
    + destruct (HE z Hz Hsm) as (n & En & Hf & HC). exists z, n. split; [change (o_nph (mp_ocp mp)) with 1%nat in Hz; nred; lia|]. split; [exact En|]. split; [exact Hf|].
      nred. rewrite (HC (fun _ => [1 / 4])).
      * cbn [mp mp_ocp sprint o_nph Rsum]. unfold exact_cost. rewrite RInt_peval. cbn. field.
      * intros ph Hph t _. cbn in Hph. assert (ph = 0)%nat as -> by lia. cbn. nred. field.
      * left. split; [exact Hs|]. intros ph q _ Hi. apply Hq in Hi. cbn. lia.
  - intros z Hz.
    assert (Hz1 : length z = (o_nph (mp_ocp mp) * nvars mp)%nat) by (change (o_nph (mp_ocp mp)) with 1%nat; nred; lia).
    assert (Hin : input_ok mp (fun _ => None) sprint_nterm z p) by (constructor; [exact Hmp|exact sprint_ok|exact sprint_scales|exact Hz1|exact lp]).
    destruct (lower_thm mp (fun _ => None) sprint_nterm z p (fun _ => sprint_v) Hin Hw (or_introl Hs)) as (n & En & HL).
    + intros q Hi. apply Hq in Hi. lia.
    + intros ph q _ Hi. apply Hq in Hi. cbn. lia.
    + intros ph q s _ Hi _; apply Hq in Hi; cbn; lia.
    + exists n. split; [exact En|]. intros Hf.
      destruct (nlp_at_ok mp Hmp _ _ sprint_ok sprint_scales z p Hz1 lp) as (rs' & n' & _ & En' & _ & _ & _ & _ & _ & _ & Hb & Hsat & _).
      assert (n' = n) as -> by (pose proof (eq_trans (eq_sym En') En) as X; injection X as X; exact X).
      pose proof (proj1 Hb (proj1 Hf)) as B. pose proof (proj1 (proj1 Hsat (proj2 Hf))) as P. specialize (B 0%nat ltac:(cbn; lia)). specialize (P 0%nat ltac:(cbn; lia)).
      destruct B as (Bx & _ & B0 & Bf & _). destruct P as (_ & _ & _ & _ & _ & Ht).
      assert (Hn0 : (0 < total_nodes (mp_orders mp))%nat) by (unfold total_nodes; lia).
      assert (T0 : y_t0 (user_traj mp z 0) = 0) by (destruct B0 as [b1 b2]; cbn in b1, b2; apply Rle_antisym; [exact b2|exact b1]).
      assert (T1 : 1 <= y_tf (user_traj mp z 0) <= 2) by (destruct Bf as [b1 b2]; cbn in b1, b2; split; [exact b1|exact b2]).
      assert (X0 : y_x (user_traj mp z 0) 0 0 = 0) by (exact (Bx 0%nat 0%nat Hn0 ltac:(cbn; lia))).
      assert (X2 : y_x (user_traj mp z 0) (total_nodes (mp_orders mp) - 1) 0 - 1 = 0) by (apply Ht; left; reflexivity).
      assert (LB := HL Hf). clear HL. eapply Rle_trans; [|apply LB].
      * change (o_nph (mp_ocp mp)) with 1%nat. cbn [Rsum]. unfold bound, value. change (o_nx (mp_ocp mp)) with 1%nat. cbn [Rsum sprint_v v_c v_a].
        change (mayer_val (mp_ocp mp) 0 (user_traj mp z 0) (total_nodes (mp_orders mp) - 1)) with 0. rewrite T0, X0. cbn [peval]. nred. lra.
      * intros ph Hph. cbn in Hph. assert (ph = 0)%nat as -> by lia. rewrite T0. lra.
      * intros ph Hph. cbn in Hph. assert (ph = 0)%nat as -> by lia. apply sprint_slower.
Qed.
End Mesh.

(** ** meshes of order 1 can cost less than the bound *)
Lemma rate_slower o ph alpha beta ta tb : cost_rate o ph alpha beta -> slower o ph ta tb (Vfun [0; beta] (fun s => [alpha s])).
Proof.
  intros Hr f g x u t a d l Hf Hg Lx Lu Ha _ _ _ _ Ed El. cbn [v_c v_a]. rewrite (Hr f g x u t a d l Hf Hg Lx Lu Ha Ed El).
  assert (D1 : Derive (peval [0; beta]) t = beta).
  { apply is_derive_unique. apply (is_derive_ext (fun t => beta * t)); [intros r; cbn; ring|]. auto_derive; [exact I|]. ring. }
  assert (D2 : forall v, Derive (peval [v]) t = 0).
  { intros v. apply is_derive_unique. apply (is_derive_ext (fun t => v)); [intros r; cbn; ring|]. auto_derive; [exact I|]. ring. }
  rewrite D1. right. rewrite Rplus_comm. f_equal. apply Rsum_ext. intros s Hs. rewrite D2. cbn [peval]. ring.
Qed.
Lemma bound_wrong : exists mp npath nterm z p n V,
  input_ok mp npath nterm z p /\ widths_ok (mp_nseg mp) (o_nph (mp_ocp mp)) p /\ o_nph (mp_ocp mp) = 1%nat /\
  (forall ta tb, slower (mp_ocp mp) 0 ta tb V) /\ length (v_c V) = 2%nat /\ (forall s, length (v_a V s) = 1%nat) /\
  nlp_at mp z p = Ok n /\ feasible n /\ bound mp 0 (user_traj mp z 0) V = 1 /\ n_f n = 3 / 4.
Proof.
  destruct balance_wrong as (mp & npath & nterm & z & p & n & alpha & beta & Hin & Hw & H1 & Hr & En & Hf & Hb & Hn).
  exists mp, npath, nterm, z, p, n, (Vfun [0; beta] (fun s => [alpha s])). split; [exact Hin|]. split; [exact Hw|]. split; [exact H1|]. split; [intros ta tb; apply rate_slower; exact Hr|].
  split; [reflexivity|]. split; [reflexivity|]. split; [exact En|]. split; [exact Hf|]. split; [|exact Hn].
  pose proof Hin as [Hmp _ _ _ _]. destruct (part_widths mp p Hmp Hw 0%nat ltac:(rewrite H1; lia)) as [_ W]. rewrite <- Hb. unfold bound, balance, value. cbn [v_c v_a peval]. rewrite W.
  rewrite (Rsum_ext (o_nx (mp_ocp mp)) (fun s => alpha s * (y_x (user_traj mp z 0) (total_nodes (mp_orders mp) - 1) s - y_x (user_traj mp z 0) 0 s))
    (fun s => (alpha s + y_tf (user_traj mp z 0) * 0) * y_x (user_traj mp z 0) (total_nodes (mp_orders mp) - 1) s - (alpha s + y_t0 (user_traj mp z 0) * 0) * y_x (user_traj mp z 0) 0 s)) by (intros s _; cbv beta; ring).
  rewrite Rsum_minus. match goal with |- @eq _ ?a ?b => change (@eq R a b) end. ring.
Qed.
