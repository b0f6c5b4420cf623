(** Examples for C79: dynamics with a lag, whose trajectory exists, and a feasible point whose controls make the states grow without bound. *)
From Coq Require Import Reals Lia Lra Psatz Bool Arith String.
From Coquelicot Require Import Coquelicot.
From Coq Require Import List.
From Verif Require Import Num PyList Mat Poly Roots Colloc Ocp Transcribe Spec SpecOcp SpecHadapt SpecExact SpecTrans SpecResid SpecSmooth SpecTrack SpecReal SpecFlow NumR ListR PolyR CollocR CompR CollocThm MeshR BlockR DiscR NlpR OcpR NlpThm CostR ScaleR NlpMain ExactR TransR TaylorR SmoothR TrackR RealR FlowR ExOcp ExNlp ExLander ExSmooth ExReal.
Import ListNotations.
Open Scope R_scope.

Lemma peval_cont (c : list R) (g : R -> R) t : continuous g t -> continuous (fun t => peval c (g t)) t.
Proof. intros H. apply (continuous_comp g (peval c)); [exact H|]. apply (ex_derive_continuous (V := R_NormedModule)). exists (dform 1 c (g t)). apply dform1_derive. Qed.
Lemma local_cont cf w y k t : continuous (local cf w y k) t.
Proof. apply (ex_derive_continuous (V := R_NormedModule)). unfold local, Rdiv. auto_derive. exact I. Qed.
Lemma line_smooth a b c d m : (2 <= m)%nat -> smooth (fun t => a + b * t) c d m 0.
Proof.
  intros Hm t _. assert (E : forall n t, Derive_n (fun t => a + b * t) n t = match n with 0%nat => a + b * t | 1%nat => b | _ => 0 end).
  { clear. induction n as [|n IH]; intros t; [reflexivity|]. cbn [Derive_n]. rewrite (Derive_ext _ _ t IH). apply is_derive_unique. destruct n as [|[|n]]; auto_derive; try exact I; ring. }
  split.
  - intros [|n] _; [exact I|]. cbn [ex_derive_n]. apply (ex_derive_ext (fun t => match n with 0%nat => a + b * t | 1%nat => b | _ => 0 end)); [intros u; symmetry; apply E|]. destruct n as [|[|n]]; auto_derive; exact I.
  - rewrite E. destruct m as [|[|m]]; try lia. rewrite Rabs_R0. lra.
Qed.

(** ** x' = u - 2 x, terminal cost x, running cost x + u *)
Definition lag : ocp Rnum :=
  Ocp (N := Rnum) 1 1 0 1
    [fun x u _ _ => Ok [nth 0 u 0 - 2 * nth 0 x 0]] [fun _ _ _ _ => Ok None] [fun xf _ _ _ _ => Ok (Some (nth 0 xf 0))]
    [fun x u _ _ => Ok (Some (nth 0 x 0 + nth 0 u 0))] [fun _ _ _ _ _ => Ok None] []
    [2] [1] [] 1 [[0]] [[0]] [[0]] [[0]] [[0]] [[1]] [[]]
    [[Fin 0]] [[Fin 1]] [[Fin 0]] [[Fin 3]] [[]] [[]]
    [[Fin 0]] [[Fin 0]] [[Fin 1]] [[Fin 1]] [] [] [false] [Fin (-15)] [Fin 15] [true] [false].
Definition lag_mp : mpo Rnum := Mpo lag 2 [2; 3]%nat (demo_cf "LGR").
Definition lag_p : list R := [1 / 4; 3 / 4].
Ltac one_phase := constructor;
  [constructor; cbn; auto; try (apply shaped1; reflexivity);
    [split; [reflexivity|]; intros H; lia|split; [reflexivity|]; intros H; lia
    |intros [|i] [|j] Hi Hj; try lia; cbn; lra|intros [|i] [|j] Hi Hj; try lia; cbn; lra|intros i j Hi Hj; lia
    |intros [|i] [|j] Hi Hj; try lia; cbn; lra|intros [|i] [|j] Hi Hj; try lia; cbn; lra|intros i j Hi Hj; lia]
  |cbn; lia
  |intros ph f x u t a H _ _ _; one ph H; eexists; split; reflexivity
  |intros ph f x u t a H _ _ _; one ph H; eexists; reflexivity
  |intros ph f xf tf x0 t0 a H _ _ _; one ph H; eexists; reflexivity
  |intros ph f x u t a H _ _ _; one ph H; reflexivity
  |intros ph f xf tf x0 t0 a H _ _ _; one ph H; reflexivity
  |reflexivity|reflexivity|reflexivity|reflexivity|reflexivity
  |intros; cbn; lia|intros i j []|cbn; lia|cbn; intros H; lia].
Lemma lag_ok : ocp_ok lag (fun _ => None) (fun _ => None).
Proof. one_phase. Qed.
Lemma lag_scales : scales_pos lag.
Proof. constructor; cbn; [intros s [<-|[]]; lra|intros s [<-|[]]; lra|intros s []|lra]. Qed.
Definition lagging : ptraj := Ptraj (fun _ => [0; 1]) (fun _ => [1; 2]) 0 1 (fun _ => 0).
Lemma lag_solves : solves lag 0 lagging.
Proof.
  constructor; cbn [lagging p_t0 p_tf p_x p_u p_a]; try lra.
  - intros t [|s] Ht Hs; [|cbn in Hs; lia]. apply (is_derive_ext (fun t : R => t)); [intros x; match goal with |- @eq _ ?a ?b => change (@eq R a b) end; cbn; lra|]. auto_derive; [exact I|]. cbn. match goal with |- @eq _ ?a ?b => change (@eq R a b) end. ring.
  - intros t c _ [].
  - intros c [].
  - intros [|s] _ Hs; [|cbn in Hs; lia]. cbn. field.
  - intros t [|s] Ht Hs; [|cbn in Hs; lia]. split; cbn; lra.
  - intros t [|c] Ht Hc; [|cbn in Hc; lia]. split; cbn; lra.
  - split; cbn; lra.
  - split; cbn; lra.
  - intros i Hi. cbn in Hi. lia.
Qed.
Lemma lag_flow : exists rs z n, mapM (c_roots (mp_cf lag_mp)) (mp_orders lag_mp) = Ok rs /\
  input_ok lag_mp (fun _ => None) (fun _ => None) z lag_p /\ widths_ok (mp_nseg lag_mp) 1 lag_p /\ nlp_at lag_mp z lag_p = Ok n /\ feasible n /\
  let w := width lag_mp lag_p 0 in let y := user_traj lag_mp z 0 in y_t0 y = 0 /\ y_tf y = 1 /\ lipschitz lag 0 (a_of lag y) (y_t0 y) (y_tf y) 2 /\
  run_lip lag 0 (a_of lag y) (during y) 1 /\ mayer_lip lag 0 (a_of lag y) (fun _ => True) (y_tf y) (y_x y 0) (y_t0 y) 1 /\
  forall cx cu, (forall k, (k < 2)%nat -> SpecResid.seg_polys lag_mp rs y k (cx k) (cu k)) ->
    steady lag_mp w 0 y cu /\ run_steady lag_mp w 0 y cu /\
    forall k q, nth_error [2; 3]%nat k = Some q ->
      smooth (run_time lag_mp w 0 y cx cu k) (seg_start w y k) (seg_start w y (S k)) (2 * q - 1) 0 /\
      smooth (dyn_time lag_mp w 0 y cx cu k 0) (seg_start w y k) (seg_start w y (S k)) q 0.
Proof.
  assert (Hmp : mpo_ok lag_mp).
  { constructor; cbn [lag_mp mp_cf mp_nseg mp_orders]; [apply demo_cf_ok; cbn; auto|reflexivity|lia|]. intros p [<-|[<-|[]]]; lia. }
  assert (Hw : widths_ok (mp_nseg lag_mp) (o_nph (mp_ocp lag_mp)) lag_p).
  { split; [reflexivity|]. intros [|ph] Hph; [|cbn in Hph; lia]. split; [reflexivity|]. split; [intros x [<-|[<-|[]]]; lra|cbn; field]. }
  destruct (exact_thm lag_mp (fun _ => None) (fun _ => None) lag_p (fun _ => lagging) Hmp lag_ok lag_scales Hw) as (rs & Er & (z & Hz & Hsm) & HE).
  - intros [|[|ph]]; split; reflexivity.
  - intros [|ph] Hph; [exact lag_solves|cbn in Hph; lia].
  - intros [|k] i j H; discriminate H.
  - intros [|ph] Hph q Hi; [|cbn in Hph; lia]. cbn in Hi. destruct Hi as [<-|[<-|[]]]; split; intros; cbn; lia.
  - destruct (HE z Hz Hsm) as (n & En & Hf & _). exists rs, z, n.
    assert (Hin : input_ok lag_mp (fun _ => None) (fun _ => None) z lag_p) by (constructor; [exact Hmp|exact lag_ok|exact lag_scales|exact Hz|reflexivity]).
    split; [exact Er|]. split; [exact Hin|]. split; [exact Hw|]. split; [exact En|]. split; [exact Hf|]. intros w y.
    specialize (Hsm 0%nat ltac:(cbn; lia)). fold w y in Hsm. destruct (part_widths lag_mp lag_p Hmp Hw 0%nat ltac:(cbn; lia)) as [W1 W2]. fold w in W1, W2.
    pose proof (rs_len lag_mp rs Er) as Lrs. pose proof (rs_good lag_mp _ _ z lag_p Hin rs Er) as Hg. clearbody y.
    assert (E0 : y_t0 y = 0) by exact (proj1 Hsm). assert (E1 : y_tf y = 1) by exact (proj1 (proj2 Hsm)).
    split; [exact E0|]. split; [exact E1|]. split; [|split; [|split]].
    + intros t u a b e s _ Hs He. destruct s as [|s]; [|cbn in Hs; lia]. specialize (He 0%nat ltac:(cbn; lia)). cbn.
      replace (u 0%nat - 2 * a 0%nat - (u 0%nat - 2 * b 0%nat)) with (- (2) * (a 0%nat - b 0%nat)) by ring. rewrite Rabs_mult, Rabs_Ropp, (Rabs_pos_eq 2) by lra. lra.
    + intros t u a b e _ _ He. specialize (He 0%nat ltac:(cbn; lia)). cbn. replace (a 0%nat + u 0%nat - (b 0%nat + u 0%nat)) with (a 0%nat - b 0%nat) by ring. rewrite Rmult_1_l. exact He.
    + intros a b e _ _ He. specialize (He 0%nat ltac:(cbn; lia)). cbn. rewrite Rmult_1_l. exact He.
    + intros cx cu Hpoly. assert (Ht : cf_tau0 (mp_cf lag_mp) < cf_tau1 (mp_cf lag_mp)) by (cbn; lra).
      assert (Hlo : (1 <= length (mp_orders lag_mp))%nat) by (cbn; lia).
      assert (Hq : forall q, In q (mp_orders lag_mp) -> (2 <= q)%nat) by (intros q [<-|[<-|[]]]; lia).
      assert (Hq1 : forall q, In q (mp_orders lag_mp) -> (1 <= q)%nat) by (intros q Hi; specialize (Hq q Hi); lia).
      assert (Hc1 : forall k t, continuous (fun t => peval (cu k 0%nat) (local (mp_cf lag_mp) w y k t)) t) by (intros k t; apply peval_cont; apply local_cont).
      split; [|split].
      * intros k s x t Hk Hs _. destruct s as [|s]; [|cbn in Hs; lia]. apply (continuous_minus (V := R_NormedModule)); [apply Hc1|apply continuous_const].
      * intros k x t Hk _. apply (continuous_plus (V := R_NormedModule)); [apply continuous_const|apply Hc1].
      * intros k q Eq. assert (Hk : (k < 2)%nat) by (apply MeshR.nth_error_lt in Eq; exact Eq). destruct (Hpoly k Hk) as [Px Pu]. specialize (Px 0%nat ltac:(cbn; lia)). specialize (Pu 0%nat ltac:(cbn; lia)).
        assert (Hy : y_t0 y < y_tf y) by lra. pose proof (nth_error_In _ _ Eq) as Hi. pose proof (Hq q Hi) as H2.
        pose proof (fun j => ExactR.at_node lag_mp rs w lagging y Ht Hlo Hq1 Lrs Hg Hsm k q j Eq) as Hn.
        assert (X : forall t, peval (cx k 0%nat) (local (mp_cf lag_mp) w y k t) = t).
        { intros t. rewrite (seg_poly lag_mp rs w y Hlo Lrs Hg k q [0; 1] (cx k 0%nat) (fun i => y_x y i 0%nat) Eq); [|cbn; lia| |exact Px].
          - rewrite (time_of lag_mp w y Ht W1 Hy k t Hk). cbn. ring.
          - intros j Hj. apply (proj1 (Hn j Hj)). cbn. lia. }
        assert (U : forall t, peval (cu k 0%nat) (local (mp_cf lag_mp) w y k t) = 1 + 2 * t).
        { intros t. rewrite (seg_poly lag_mp rs w y Hlo Lrs Hg k q [1; 2] (cu k 0%nat) (fun i => y_u y i 0%nat) Eq); [|cbn; lia| |exact Pu].
          - rewrite (time_of lag_mp w y Ht W1 Hy k t Hk). cbn. ring.
          - intros j Hj. apply (proj2 (Hn j Hj)). cbn. lia. }
        split.
        { apply (smooth_same _ (fun t => 1 + 3 * t)); [|apply line_smooth; lia]. intros t. transitivity (t + (1 + 2 * t)); [|ring]. rewrite <- (U t). rewrite <- (X t) at 2. reflexivity. }
        { apply (smooth_same _ (fun t => 1)); [|apply const_smooth; lia]. intros t. transitivity ((1 + 2 * t) - 2 * t); [|ring]. rewrite <- (U t). rewrite <- (X t) at 3. reflexivity. }
Qed.

(** ** x' = (1 + x^2) u *)
Definition burst : ocp Rnum :=
  Ocp (N := Rnum) 1 1 0 1
    [fun x u _ _ => Ok [(1 + nth 0 x 0 * nth 0 x 0) * nth 0 u 0]] [fun _ _ _ _ => Ok None] [fun _ _ _ _ _ => Ok (Some 0)]
    [fun _ _ _ _ => Ok (Some 0)] [fun _ _ _ _ _ => Ok None] []
    [1] [1] [] 1 [[0]] [[0]] [[0]] [[0]] [[0]] [[2]] [[]]
    [[Fin 0]] [[Fin 4]] [[Fin 0]] [[Fin 2]] [[]] [[]]
    [[Fin 0]] [[Fin 0]] [[Fin 2]] [[Fin 2]] [] [] [false] [Fin (-15)] [Fin 15] [false] [false].
Definition burst_mp : mpo Rnum := Mpo burst 1 [1]%nat (demo_cf "LGR").
Lemma burst_ok : ocp_ok burst (fun _ => None) (fun _ => None).
Proof. one_phase. Qed.
Lemma burst_scales : scales_pos burst.
Proof. constructor; cbn; [intros s [<-|[]]; lra|intros s [<-|[]]; lra|intros s []|lra]. Qed.
Definition bursting : utraj := Utraj (fun i _ => match i with 1%nat => 4 | _ => 0 end) (fun i _ => match i with 1%nat => 2 / 17 | _ => 2 end) 0 2 (fun _ => 0).
Definition burst_z : list R := pack burst_mp (fun _ => bursting).
Lemma burst_input : input_ok burst_mp (fun _ => None) (fun _ => None) burst_z [1].
Proof.
  constructor; [|exact burst_ok|exact burst_scales|unfold burst_z; rewrite length_pack; reflexivity|reflexivity].
  constructor; cbn [burst_mp mp_cf mp_nseg mp_orders]; [apply demo_cf_ok; cbn; auto|reflexivity|lia|]. intros q [<-|[]]. lia.
Qed.
Lemma burst_traj ph : (ph < 1)%nat -> same_traj burst_mp (user_traj burst_mp burst_z ph) bursting.
Proof. intros H. exact (pack_traj burst_mp (fun _ => bursting) ph (ok_shapes _ _ _ burst_ok) burst_scales H). Qed.
Lemma burst_feasible : exists n, nlp_at burst_mp burst_z [1] = Ok n /\ feasible n.
Proof.
  destruct (nlp_like burst_mp _ _ _ _ (fun _ => bursting) burst_input burst_traj) as (rs & n & Er & En & Hlen & Hf & _). exists n. split; [exact En|]. apply Hf.
  assert (rs = [[-1; 1]]) as -> by (pose proof (eq_trans (eq_sym Er) (eq_refl (Ok [[-1; 1]]))) as X; injection X as X; exact X).
  split; [|split].
  - intros ph Hph. cbn in Hph. assert (ph = 0)%nat as -> by lia. split; [|split; [|split; [|split]]].
    + intros i s Hi Hs. cbn in Hi, Hs. assert (s = 0)%nat as -> by lia. destruct i as [|[|i]]; [reflexivity| |lia]; split; cbn; lra.
    + intros i c Hi Hs. cbn in Hi, Hs. assert (c = 0)%nat as -> by lia. destruct i as [|[|i]]; [| |lia]; cbn; split; cbn; lra.
    + split; cbn; lra.
    + split; cbn; lra.
    + intros i Hi. cbn in Hi. lia.
  - intros ph Hph. cbn in Hph. assert (ph = 0)%nat as -> by lia. split; [|split; [|split; [|split; [|split]]]].
    + intros i k j s c Ho Hs Hc. cbn in Hs. assert (s = 0)%nat as -> by lia. assert (Hk : (k < 1)%nat) by (destruct Ho as (q & Eq & _); exact (nth_error_lt _ _ _ Eq)).
      pose proof (demo_line 1 k _ c Hk Hc) as L. cbn beta in L. assert (k = 0)%nat as -> by lia.
      destruct Ho as (q & Eq & Hj & Hkj & ->).
      apply (is_derive_ext (fun x => (y_x bursting 0 0 + y_x bursting 1 0) / 2 + (y_x bursting 1 0 - y_x bursting 0 0) / 2 * x)); [intros x; symmetry; apply L|].
      cbn in Eq; injection Eq as <-; destruct j as [|[|j]]; try lia; (auto_derive; [exact I|cbn; unfold seg_h, width; cbn; nred; field]).
    + intros i k j c _ [].
    + intros H; discriminate H.
    + intros H; discriminate H.
    + intros H; discriminate H.
    + intros c [].
  - intros H. cbn in H. lia.
Qed.
Lemma burst_thm : exists (mp : mpo Rnum) npath nterm z p n rs cx cu, input_ok mp npath nterm z p /\ widths_ok (mp_nseg mp) (o_nph (mp_ocp mp)) p /\
  nlp_at mp z p = Ok n /\ feasible n /\ mapM (c_roots (mp_cf mp)) (mp_orders mp) = Ok rs /\
  let w := width mp p 0 in let y := user_traj mp z 0 in y_t0 y < y_tf y /\
  (forall k, (k < length (mp_orders mp))%nat -> SpecResid.seg_polys mp rs y k (cx k) (cu k)) /\ steady mp w 0 y cu /\
  (forall x u t, rhs (mp_ocp mp) 0 (a_of (mp_ocp mp) y) x u t = [(1 + x 0%nat * x 0%nat) * u 0%nat]) /\
  ~ exists x, follows mp w 0 y cu x /\ begins mp y x.
Proof.
  destruct burst_feasible as (n & En & Hf). pose proof (burst_traj 0 ltac:(lia)) as Hs.
  exists burst_mp, (fun _ => None), (fun _ => None), burst_z, [1], n, [[-1; 1]], (fun _ _ => [2; 2]), (fun _ _ => [18 / 17; - (16 / 17)]).
  split; [exact burst_input|]. split.
  { split; [reflexivity|]. intros [|ph] Hph; [|cbn in Hph; lia]. split; [reflexivity|]. split; [intros x [<-|[]]; lra|cbn; ring]. }
  split; [exact En|]. split; [exact Hf|]. split; [reflexivity|]. intros w y. fold y in Hs. clearbody y. destruct Hs as (Sx & Su & S0 & S1 & _). cbn in S0, S1.
  split; [lra|]. split; [|split; [|split]].
  - intros k Hk. assert (k = 0)%nat as -> by (cbn in Hk; lia). split; intros s Hs; (assert (s = 0)%nat as -> by (cbn in Hs; lia)); (split; [cbn; lia|]); intros j Hj; cbn in Hj.
    + rewrite Sx by (cbn; lia). destruct j as [|[|j]]; [| |lia]; cbn; ring.
    + rewrite Su by (cbn; lia). destruct j as [|[|j]]; [| |lia]; cbn; field.
  - intros k s x t Hk Hs _. assert (s = 0)%nat as -> by (cbn in Hs; lia). apply (continuous_mult (K := R_AbsRing)); [apply continuous_const|]. apply peval_cont. apply local_cont.
  - reflexivity.
  - intros (x & Hx & Hb). pose proof (Hb 0%nat ltac:(cbn; lia)) as B. rewrite Sx in B by (cbn; lia). cbn in B. rewrite S0 in B.
    set (U := fun t => 2 * t - 8 / 17 * t ^ 2).
    assert (Hd : forall t, 0 < t < 2 -> is_derive (fun t => atan (x 0%nat t) - U t) t 0).
    { intros t Ht. assert (Tl : seg_time (mp_cf burst_mp) w y 0 (t - 1) = t) by (unfold seg_time, seg_start, seg_h, w, width; cbn; rewrite S0, S1; field).
      pose proof (fo_eq _ _ _ _ _ _ Hx 0%nat (t - 1) 0%nat ltac:(cbn; lia) ltac:(cbn; lra) ltac:(cbn; lia)) as D. cbv zeta in D. rewrite Tl in D.
      set (v := nth 0 (rhs _ _ _ _ _ _) 0) in D. assert (Ev : v = (1 + x 0%nat t ^ 2) * (2 - 16 / 17 * t)) by (unfold v; cbn; field). clearbody v.
      evar_last; [apply (is_derive_minus (V := R_NormedModule)); [apply (is_derive_comp atan (x 0%nat) t _ _ (is_derive_atan _) D)|unfold U; auto_derive; [exact I|reflexivity]]|].
      rewrite Ev. unfold minus, plus, opp, scal; cbn. unfold mult; cbn. unfold Rsqr. field. nra. }
    assert (Hc : forall t, 0 <= t <= 2 -> continuity_pt (fun t => atan (x 0%nat t) - U t) t).
    { intros t Ht. apply continuity_pt_filterlim. apply (continuous_minus (V := R_NormedModule) (fun t => atan (x 0%nat t)) U).
      - apply (continuous_comp (x 0%nat) atan); [apply (fo_cont _ _ _ _ _ _ Hx); [cbn; lia|lra]|apply (ex_derive_continuous (V := R_NormedModule)); exists (/ (1 + (x 0%nat t)²)); apply is_derive_atan].
      - apply (ex_derive_continuous (V := R_NormedModule)). unfold U. auto_derive. exact I. }
    destruct (MVT_gen (fun t => atan (x 0%nat t) - U t) 0 2 (fun _ => 0)) as (c & _ & E).
    + intros t Ht. rewrite Rmin_left, Rmax_right in Ht by lra. apply Hd. exact Ht.
    + intros t Ht. rewrite Rmin_left, Rmax_right in Ht by lra. apply Hc. exact Ht.
    + rewrite B, atan_0 in E. unfold U in E. pose proof (atan_bound (x 0%nat 2)). pose proof PI_4. lra.
Qed.
