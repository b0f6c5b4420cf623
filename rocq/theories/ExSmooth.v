(** A problem whose solution is not a polynomial (example for C62). *)
From Coq Require Import Reals Lia Lra Psatz Bool Arith String.
From Coquelicot Require Import Coquelicot.
From Coq Require Import List.
From Verif Require Import Num PyList Mat Poly Roots Colloc Ocp Transcribe Spec SpecOcp SpecHadapt SpecExact SpecSmooth NumR ListR PolyR CollocR CompR CollocThm MeshR BlockR DiscR NlpR OcpR NlpThm CostR ScaleR NlpMain SmoothR ExOcp ExNlp.
Import ListNotations.
Open Scope R_scope.

(** x' = u - 2 x from 1 to exp(-1) at time 1 with x <= 1; cost x(1) + integral of u *)
Definition decay : ocp Rnum :=
  Ocp (N := Rnum) 1 1 0 1
    [fun x u _ _ => Ok [nth 0 u 0 - 2 * nth 0 x 0]] [fun x _ _ _ => Ok (Some [nth 0 x 0 - 1])] [fun xf _ _ _ _ => Ok (Some (nth 0 xf 0))]
    [fun _ u _ _ => Ok (Some (nth 0 u 0))] [fun xf _ _ _ _ => Ok (Some [nth 0 xf 0 - exp (-1)])] []
    [2] [1 / 2] [] 1 [[1]] [[0]] [[0]] [[0]] [[0]] [[1]] [[]]
    [[Fin (-2)]] [[Fin 2]] [[Fin 0]] [[Fin 1]] [[]] [[]]
    [[Fin 0]] [[Fin 0]] [[Fin 1]] [[Fin 1]] [] [] [false] [Fin (-15)] [Fin 15] [true] [false].
Lemma decay_shapes : shapes_ok decay.
Proof.
  constructor; cbn; auto; try (apply shaped1; reflexivity).
  - split; [reflexivity|]. intros H. lia.
  - split; [reflexivity|]. intros H. lia.
  - intros [|i] [|j] Hi Hj; try lia; cbn; lra.
  - intros [|i] [|j] Hi Hj; try lia; cbn; lra.
  - intros i j Hi Hj; lia.
  - intros [|i] [|j] Hi Hj; try lia; cbn; lra.
  - intros [|i] [|j] Hi Hj; try lia; cbn; lra.
  - intros i j Hi Hj; lia.
Qed.
Definition decay_n (ph : nat) : option nat := Some 1%nat.
Lemma decay_ok : ocp_ok decay decay_n decay_n.
Proof.
  constructor; [exact decay_shapes|cbn; lia|..].
  - intros ph f x u t a H _ _ _. one ph H; eexists; split; reflexivity.
  - intros ph f x u t a H _ _ _. one ph H; eexists; reflexivity.
  - intros ph f xf tf x0 t0 a H _ _ _. one ph H; eexists; reflexivity.
  - intros ph f x u t a H _ _ _. one ph H; cbn; eexists; split; reflexivity.
  - intros ph f xf tf x0 t0 a H _ _ _. one ph H; cbn; eexists; split; reflexivity.
  - reflexivity.
  - reflexivity.
  - reflexivity.
  - reflexivity.
  - reflexivity.
  - intros; cbn; lia.
  - intros i j [].
  - cbn; lia.
  - cbn; intros H; lia.
Qed.
Lemma decay_scales : scales_pos decay.
Proof. constructor; cbn; [intros s [<-|[]]; lra|intros s [<-|[]]; lra|intros s []|lra]. Qed.
Lemma decay_no_slopes : no_slopes decay.
Proof. intros [|[|ph]]; split; reflexivity. Qed.

(** x(t) = u(t) = exp(-t) *)
Definition decays : ftraj := Ftraj (fun _ t => exp (- t)) (fun _ t => exp (- t)) 0 1 (fun _ => 0).
Lemma exp_derive t : is_derive (fun t => exp (- t)) t (- exp (- t)).
Proof. auto_derive; [exact I|ring]. Qed.
Lemma exp_range t : 0 <= t -> 0 < exp (- t) <= 1.
Proof. intros H. split; [apply exp_pos|]. destruct (Req_dec t 0) as [->|]; [rewrite Ropp_0, exp_0; lra|]. rewrite <- exp_0. apply Rlt_le, exp_increasing. lra. Qed.
Lemma decays_solves : fsolves decay 0 decays.
Proof.
  constructor; cbn [decays f_t0 f_tf f_x f_u f_a].
  - lra.
  - intros t [|s] Hx Hs; [|cbn in Hs; lia]. evar_last; [apply exp_derive|]. cbn. ring.
  - intros t c Hx Hc. cbn in Hc. destruct Hc as [<-|[]]. pose proof (exp_range t ltac:(lra)). lra.
  - intros c Hc. cbn in Hc. destruct Hc as [<-|[]]. replace (- (1)) with (-1) by ring. lra.
  - intros [|s] _ Hs; [|cbn in Hs; lia]. cbn. rewrite Ropp_0. apply exp_0.
  - intros t [|s] Hx Hs; [|cbn in Hs; lia]. pose proof (exp_range t ltac:(lra)). split; cbn; lra.
  - intros t [|s] Hx Hs; [|cbn in Hs; lia]. pose proof (exp_range t ltac:(lra)). split; cbn; lra.
  - split; cbn; lra.
  - split; cbn; lra.
  - intros i Hi. cbn in Hi. lia.
Qed.
Lemma exp_derive_n n t : Derive_n (fun t => exp (- t)) n t = (-1) ^ n * exp (- t).
Proof.
  revert t. induction n as [|n IH]; intros t; [cbn; ring|]. cbn [Derive_n]. rewrite (Derive_ext _ (fun t => (-1) ^ n * exp (- t)) t IH).
  apply is_derive_unique. evar_last; [apply (is_derive_scal (fun t => exp (- t)) t ((-1) ^ n)); apply exp_derive|]. cbn [pow]. unfold scal; cbn; unfold mult; cbn. ring.
Qed.
Lemma exp_smooth a b m : 0 <= a -> smooth (fun t => exp (- t)) a b m 1.
Proof.
  intros Ha t Hx. split.
  - intros [|k] _; [exact I|]. cbn [ex_derive_n]. apply (ex_derive_ext (fun t => (-1) ^ k * exp (- t))); [intros u; symmetry; apply exp_derive_n|]. auto_derive. exact I.
  - rewrite exp_derive_n, Rabs_mult, pow_1_abs, Rmult_1_l. pose proof (exp_range t ltac:(lra)). rewrite Rabs_pos_eq; lra.
Qed.
Lemma decay_cost : fcost decay 0 decays (fun t => exp (- t)) = 1.
Proof.
  unfold fcost. cbn [decays f_t0 f_tf]. assert (E : RInt (fun t => exp (- t)) 0 1 = 1 - exp (- 1)).
  { replace (1 - exp (- 1)) with (- exp (- 1) - (- exp (- 0))) by (rewrite Ropp_0, exp_0; ring). apply is_RInt_unique. apply (is_RInt_derive (fun t => - exp (- t))).
    - intros x _. auto_derive; [exact I|ring].
    - intros x _. apply (ex_derive_continuous (V := R_NormedModule)). eexists. apply exp_derive. }
  rewrite E. match goal with |- ?a + _ = _ => change a with (exp (- (1))) end. replace (Ropp 1) with (IZR (-1)) by ring. ring.
Qed.
Lemma decay_linked : flinked decay (fun _ => decays).
Proof. intros k i j H. destruct k; discriminate. Qed.
Lemma equal_widths K : (1 <= K)%nat -> widths_ok K 1 (repeat (1 / INR K) K).
Proof.
  intros HK. split; [rewrite repeat_length; lia|]. intros ph Hph. assert (ph = 0)%nat as -> by lia. unfold phase_part. rewrite Nat.mul_0_r. cbn [skipn]. rewrite firstn_all2 by (rewrite repeat_length; lia).
  split; [apply repeat_length|]. split.
  - intros x Hx. apply repeat_spec in Hx. subst x. apply Rdiv_lt_0_compat; [lra|apply lt_0_INR; lia].
  - assert (E : forall n x, total (repeat x n) = INR n * x). { induction n as [|n IH]; intros x; [cbn; ring|]. cbn [repeat]. rewrite S_INR. unfold total in *. cbn [fold_right]. rewrite IH. ring. }
    rewrite E. field. apply not_0_INR. lia.
Qed.
Lemma decay_converges cf q : cfg_ok cf -> cf_scheme cf = "LGR"%string -> (2 <= q)%nat ->
  forall eps, 0 < eps -> exists K0, (1 <= K0)%nat /\ forall K, (K0 <= K)%nat -> let mp := Mpo decay K (repeat q K) cf in
    exists z n, length z = nvars mp /\ nlp_at mp z (repeat (1 / INR K) K) = Ok n /\ sat (n_x n) /\ sat_within eps (n_g n) /\ Rabs (n_f n - 1) <= eps.
Proof.
  intros Hcf Hl Hq eps He.
  destruct (converge_thm cf q decay decay_n decay_n (fun _ => decays) (fun _ t => exp (- t)) 1 1 Hcf Hl decay_ok decay_scales decay_no_slopes) with (eps := eps) as (delta & Hd & H).
  - intros ph Hph. assert (ph = 0)%nat as -> by (cbn in Hph; lia). split; [exact decays_solves|]. intros t Hx. reflexivity.
  - exact decay_linked.
  - exact He.
  - destruct (archimed_cor1 delta Hd) as (K0 & HK & HK0). exists K0. split; [lia|]. intros K HKK mp.
    assert (HIK : 0 < INR K0) by (apply lt_0_INR; lia). assert (HKI : INR K0 <= INR K) by (apply le_INR; exact HKK).
    destruct (H mp (repeat (1 / INR K) K) eq_refl eq_refl) as (rs & z & n & _ & Lz & _ & En & Hx & Hg & Hf).
    + constructor; cbn; [exact Hcf|apply repeat_length|lia|]. intros p Hp. apply repeat_spec in Hp. lia.
    + cbn. apply equal_widths. lia.
    + intros q' Hq'. cbn in Hq'. apply repeat_spec in Hq'. lia.
    + intros ph _ q' _. split; intros; apply exp_smooth; cbn; lra.
    + intros ph q' _ _. apply exp_smooth. cbn; lra.
    + intros ph k Hph Hk. cbn in Hph, Hk. assert (ph = 0)%nat as -> by lia. unfold duration, width. cbn [decays f_t0 f_tf Nat.mul Nat.add]. rewrite nth_repeat_in by exact Hk.
      apply Rle_trans with (/ INR K0); [|lra]. replace ((1 - 0) * (1 / INR K)) with (/ INR K) by (field; lra). apply Rinv_le_contravar; assumption.
    + exists z, n. split; [etransitivity; [exact Lz|]; change (o_nph decay) with 1%nat; apply Nat.mul_1_l|]. split; [exact En|]. split; [exact Hx|]. split; [exact Hg|]. cbn [Rsum o_nph decay] in Hf. rewrite decay_cost in Hf. replace (n_f n - 1) with (n_f n - (0 + 1)) by ring. exact Hf.
Qed.

(** ** order 1: the objective of finer and finer meshes tends to half of the cost *)
Definition stay : ocp Rnum :=
  Ocp (N := Rnum) 1 1 0 1
    [fun _ u _ _ => Ok [nth 0 u 0]] [fun _ _ _ _ => Ok None] [fun _ _ _ _ _ => Ok (Some 0)]
    [fun _ _ _ _ => Ok (Some 1)] [fun _ _ _ _ _ => Ok None] []
    [1] [1] [] 1 [[0]] [[0]] [[0]] [[0]] [[0]] [[1]] [[]]
    [[Fin (-2)]] [[Fin 2]] [[Fin (-1)]] [[Fin 1]] [[]] [[]]
    [[Fin 0]] [[Fin 0]] [[Fin 1]] [[Fin 1]] [] [] [false] [Fin (-15)] [Fin 15] [true] [false].
Lemma stay_ok : ocp_ok stay (fun _ => None) (fun _ => None).
Proof.
  constructor; [|cbn; lia|..].
  - constructor; cbn; auto; try (apply shaped1; reflexivity).
    + split; [reflexivity|]. intros H. lia.
    + split; [reflexivity|]. intros H. lia.
    + intros [|i] [|j] Hi Hj; try lia; cbn; lra.
    + intros [|i] [|j] Hi Hj; try lia; cbn; lra.
    + intros i j Hi Hj; lia.
    + intros [|i] [|j] Hi Hj; try lia; cbn; lra.
    + intros [|i] [|j] Hi Hj; try lia; cbn; lra.
    + intros i j Hi Hj; lia.
  - intros ph f x u t a H _ _ _. one ph H; eexists; split; reflexivity.
  - intros ph f x u t a H _ _ _. one ph H; eexists; reflexivity.
  - intros ph f xf tf x0 t0 a H _ _ _. one ph H; eexists; reflexivity.
  - intros ph f x u t a H _ _ _. one ph H; reflexivity.
  - intros ph f xf tf x0 t0 a H _ _ _. one ph H; reflexivity.
  - reflexivity.
  - reflexivity.
  - reflexivity.
  - reflexivity.
  - reflexivity.
  - intros; cbn; lia.
  - intros i j [].
  - cbn; lia.
  - cbn; intros H; lia.
Qed.
Lemma stay_scales : scales_pos stay.
Proof. constructor; cbn; [intros s [<-|[]]; lra|intros s [<-|[]]; lra|intros s []|lra]. Qed.
Definition stays : ftraj := Ftraj (fun _ _ => 0) (fun _ _ => 0) 0 1 (fun _ => 0).
Lemma stays_solves : fsolves stay 0 stays.
Proof.
  constructor; cbn [stays f_t0 f_tf f_x f_u f_a].
  - lra.
  - intros t [|s] Hx Hs; [|cbn in Hs; lia]. cbn. apply (is_derive_const (V := R_NormedModule)).
  - intros t c Hx [].
  - intros c [].
  - intros [|s] _ Hs; [|cbn in Hs; lia]. reflexivity.
  - intros t [|s] Hx Hs; [|cbn in Hs; lia]. split; cbn; lra.
  - intros t [|s] Hx Hs; [|cbn in Hs; lia]. split; cbn; lra.
  - split; cbn; lra.
  - split; cbn; lra.
  - intros i Hi. cbn in Hi. lia.
Qed.
Lemma stay_linked : flinked stay (fun _ => stays).
Proof. intros k i j H. destruct k; discriminate. Qed.
Lemma const_smooth c a b m : (1 <= m)%nat -> smooth (fun _ => c) a b m 0.
Proof.
  intros Hm t _. split; [intros k _; apply ex_derive_n_const|]. destruct m as [|m]; [lia|]. rewrite Derive_n_const, Rabs_R0. lra.
Qed.
Lemma stay_cost : fcost stay 0 stays (fun _ => 1) = 1.
Proof. unfold fcost. cbn [stays f_t0 f_tf]. rewrite RInt_const. unfold scal; cbn; unfold mult; cbn. ring. Qed.
Lemma stay_objective cf K : cfg_ok cf -> (1 <= K)%nat -> let mp := Mpo stay K (repeat 1%nat K) cf in
  forall rs z, mapM (c_roots cf) (mp_orders mp) = Ok rs -> length z = nvars mp -> fsamples mp rs (width mp (repeat (1 / INR K) K) 0) stays (user_traj mp z 0) ->
  exists n, nlp_at mp z (repeat (1 / INR K) K) = Ok n /\ n_f n = 1 / 2 + 1 / (2 * INR K).
Proof.
  intros Hcf HK mp rs z Er Lz Hs. set (p := repeat (1 / INR K) K) in *. pose proof (co_taus _ Hcf) as Ht.
  assert (Hmp : mpo_ok mp) by (constructor; cbn; [exact Hcf|apply repeat_length|exact HK|]; intros q Hq; apply repeat_spec in Hq; lia).
  assert (Hin : input_ok mp (fun _ => None) (fun _ => None) z p).
  { constructor; [exact Hmp|exact stay_ok|exact stay_scales|change (o_nph (mp_ocp mp)) with 1%nat; rewrite Nat.mul_1_l; exact Lz|cbn; unfold p; rewrite repeat_length; lia]. }
  destruct (objective mp _ _ z p Hin) as (rs' & n & Er' & En & _ & Hf & _).
  assert (rs' = rs) as -> by (pose proof (eq_trans (eq_sym Er') Er) as X; injection X as X; exact X). exists n. split; [exact En|].
  assert (Hl : length (mp_orders mp) = K) by (cbn; apply repeat_length).
  assert (HKp : 0 < INR K) by (apply lt_0_INR; lia).
  set (y := user_traj mp z 0) in *. destruct Hs as (E0 & E1 & _). cbn [stays f_t0 f_tf] in E0, E1.
  set (t0 := cf_tau0 cf) in *. set (t1 := cf_tau1 cf) in *.
  assert (Hnode : forall k, (k < K)%nat -> good_nodes t0 t1 1 (nth k rs [])).
  { intros k Hk. destruct (mapM_inv _ _ _ Er) as [_ HI]. destruct (HI k 1%nat) as (r & E2 & E3).
    - cbn. rewrite (nth_error_nth' _ 0%nat) by (rewrite repeat_length; exact Hk). rewrite nth_repeat_in by exact Hk. reflexivity.
    - rewrite (nth_error_nth _ _ _ E2). destruct (c_roots_good cf 1 Hcf (le_n 1)) as (r' & E4 & G). assert (r' = r) as -> by (pose proof (eq_trans (eq_sym E4) E3) as X; injection X as X; exact X). exact G. }
  assert (HC : forall ph, (ph < o_nph (mp_ocp mp))%nat -> cost_interp mp rs (width mp p ph) ph (user_traj mp z ph) ((fun _ _ => [1]) ph)).
  { intros ph Hph k Hk. change (ph < 1)%nat in Hph. assert (ph = 0)%nat as -> by lia. rewrite Hl in Hk. destruct (Hnode k Hk) as (L & _). split; [cbn [length]; nred; lia|]. intros j Hj. cbn. ring. }
  assert (HB : start_basis mp rs (fun _ => [t1 / (t1 - t0); - (1 / (t1 - t0))])).
  { intros k Hk. rewrite Hl in Hk. destruct (Hnode k Hk) as (L & _ & N0 & N1). split; [cbn [length]; nred; lia|]. intros j Hj. destruct j as [|[|j]]; [etransitivity; [exact (f_equal (peval _) N0)|]|etransitivity; [exact (f_equal (peval _) N1)|]|exfalso; nred; lia]; cbn; field; lra. }
  pose proof (Hf (fun _ _ => [1]) _ HC HB) as HE. etransitivity; [exact HE|]. change (o_nph (mp_ocp mp)) with 1%nat. cbn [Rsum]. unfold phase_cost, start_cost. rewrite Hl.
  change (mayer_val (mp_ocp mp) 0 (user_traj mp z 0) (total_nodes (mp_orders mp) - 1)) with 0. cbn [mp mp_cf]. fold t0 t1.
  assert (I1 : RInt (peval [1]) t0 t1 = t1 - t0) by (rewrite RInt_peval; cbn; field).
  assert (I2 : RInt (peval [t1 / (t1 - t0); - (1 / (t1 - t0))]) t0 t1 = (t1 - t0) / 2) by (rewrite RInt_peval; cbn; field; lra).
  rewrite I1, I2. assert (Hh : forall k, (k < K)%nat -> seg_h cf (width mp p 0) (user_traj mp z 0) k = 1 / INR K / (t1 - t0)).
  { intros k Hk. unfold seg_h. fold y. rewrite E0, E1. unfold width. cbn [mp mp_nseg Nat.mul Nat.add]. unfold p. rewrite nth_repeat_in by exact Hk. fold t0 t1. field. split; lra. }
  assert (Hc : forall i (c : R), Rsum i (fun _ => c) = INR i * c). { induction i as [|m IH]; intros c; [cbn; ring|]. cbn [Rsum]. rewrite IH, S_INR. ring. }
  rewrite (Rsum_ext K _ (fun _ => 1 / INR K)) by (intros k Hk; fold mp; rewrite Hh by exact Hk; field; split; lra).
  rewrite (Rsum_ext (K - 1) _ (fun _ => 1 / INR K / 2)).
  - rewrite !Hc, minus_INR by exact HK. change (INR 1) with 1. match goal with |- @eq _ ?a ?b => change (@eq R a b) end. field. lra.
  - intros k Hk. fold mp. rewrite Hh by lia. change (run_at mp rs (width mp p 0) 0 (user_traj mp z 0) (S k) 0) with 1. field. split; lra.
Qed.
Lemma stay_refutes : exists o npath nterm Ps Ls, ocp_ok o npath nterm /\ scales_pos o /\ no_slopes o /\
  (forall ph, (ph < o_nph o)%nat -> fsolves o ph (Ps ph) /\ run_fun o ph (Ps ph) (Ls ph)) /\ flinked o Ps /\
  (forall mp ph m, mp_ocp mp = o -> (1 <= m)%nat -> smooth_traj mp ph (Ps ph) 0 /\ smooth (Ls ph) (f_t0 (Ps ph)) (f_tf (Ps ph)) m 0) /\
  o_nph o = 1%nat /\ fcost o 0 (Ps 0%nat) (Ls 0%nat) = 1 /\
  forall cf K, cfg_ok cf -> (1 <= K)%nat -> let mp := Mpo o K (repeat 1%nat K) cf in
    exists rs, mapM (c_roots cf) (mp_orders mp) = Ok rs /\
    (exists z, length z = nvars mp /\ fsamples mp rs (width mp (repeat (1 / INR K) K) 0) (Ps 0%nat) (user_traj mp z 0)) /\
    forall z, length z = nvars mp -> fsamples mp rs (width mp (repeat (1 / INR K) K) 0) (Ps 0%nat) (user_traj mp z 0) ->
      exists n, nlp_at mp z (repeat (1 / INR K) K) = Ok n /\ feasible n /\ n_f n = 1 / 2 + 1 / (2 * INR K).
Proof.
  assert (Hns : no_slopes stay) by (intros [|[|ph]]; split; reflexivity).
  exists stay, (fun _ => None), (fun _ => None), (fun _ => stays), (fun _ _ => 1).
  split; [exact stay_ok|]. split; [exact stay_scales|]. split; [exact Hns|].
  split; [intros ph Hph; change (ph < 1)%nat in Hph; assert (ph = 0)%nat as -> by lia; split; [exact stays_solves|intros t _; reflexivity]|]. split; [exact stay_linked|].
  assert (Hsm : forall mp ph m, mp_ocp mp = stay -> (1 <= m)%nat -> smooth_traj mp ph stays 0 /\ smooth (fun _ => 1) (f_t0 stays) (f_tf stays) m 0).
  { intros mp ph m _ Hm. split; [intros q _; split; intros; apply (const_smooth 0); lia|apply const_smooth; exact Hm]. }
  split; [exact Hsm|]. split; [reflexivity|]. split; [exact stay_cost|]. intros cf K Hcf HK mp.
  destruct (smooth_thm cf 1 Hcf) as (C & _ & H).
  destruct (H mp (fun _ => None) (fun _ => None) (repeat (1 / INR K) K) (fun _ => stays) 0 eq_refl) as (rs & Er & (z & Lz & Hz) & HH).
  - constructor; cbn; [exact Hcf|apply repeat_length|exact HK|]. intros q Hq. apply repeat_spec in Hq. lia.
  - intros q Hq. cbn in Hq. apply repeat_spec in Hq. lia.
  - exact stay_ok.
  - exact stay_scales.
  - cbn. apply equal_widths. exact HK.
  - exact Hns.
  - intros ph Hph. change (ph < 1)%nat in Hph. assert (ph = 0)%nat as -> by lia. split; [exact stays_solves|]. apply (Hsm mp 0%nat 1%nat eq_refl (le_n 1)).
  - exact stay_linked.
  - exists rs. split; [exact Er|]. change (o_nph (mp_ocp mp)) with 1%nat in *. rewrite Nat.mul_1_l in Lz. split; [exists z; split; [exact Lz|apply (Hz 0%nat); lia]|].
    intros z' Lz' Hz'. destruct (stay_objective cf K Hcf HK rs z' Er Lz' Hz') as (n & En & Ef). exists n. split; [exact En|]. split; [|exact Ef].
    destruct (HH z') as (n' & En' & Hx & Hg & _); [rewrite Nat.mul_1_l; exact Lz'|intros ph Hph; assert (ph = 0)%nat as -> by lia; exact Hz'|].
    assert (n' = n) as -> by (pose proof (eq_trans (eq_sym En') En) as X; injection X as X; exact X). split; [exact Hx|].
    assert (G : sat_within 0 (n_g n)) by (apply Hg; [lra|intros; lra|intros; lra]). intros i Hi. destruct (G i Hi) as [A B]. rewrite Rplus_0_r in A. rewrite Rminus_0_r in B. split; assumption.
Qed.
