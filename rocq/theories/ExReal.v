(** Examples for C78: two phases whose objective is the cost of the trajectory, and meshes of order 1 where it is not. *)
From Coq Require Import Reals Lia Lra Psatz Bool Arith String.
From Coquelicot Require Import Coquelicot.
From Coq Require Import List.
From Verif Require Import Num PyList Mat Poly Roots Colloc Ocp Transcribe Spec SpecOcp SpecHadapt SpecExact SpecResid SpecSmooth SpecTrack SpecReal NumR ListR PolyR CollocR CompR CollocThm MeshR BlockR DiscR NlpR OcpR NlpThm CostR ScaleR NlpMain ExactR TaylorR SmoothR TrackR RealR ExOcp ExNlp ExLander ExSmooth.
Import ListNotations.
Open Scope R_scope.

Lemma smooth_same (f g : R -> R) a b m M : (forall t, f t = g t) -> smooth g a b m M -> smooth f a b m M.
Proof.
  intros E H t Ht. destruct (H t Ht) as [A B]. split.
  - intros k Hk. apply (ex_derive_n_ext g f); [intros u; symmetry; apply E|exact (A k Hk)].
  - rewrite (Derive_n_ext f g m t E). exact B.
Qed.
Lemma sq_derive b n t : Derive_n (fun t => (b + t) ^ 2) n t = match n with 0%nat => (b + t) ^ 2 | 1%nat => 2 * (b + t) | 2%nat => 2 | _ => 0 end.
Proof.
  revert t. induction n as [|n IH]; intros t; [reflexivity|]. cbn [Derive_n]. rewrite (Derive_ext _ _ t IH). apply is_derive_unique.
  destruct n as [|[|[|n]]]; auto_derive; try exact I; ring.
Qed.
Lemma sq_smooth b c d m : (3 <= m)%nat -> smooth (fun t => (b + t) ^ 2) c d m 0.
Proof.
  intros Hm t _. split.
  - intros [|n] _; [exact I|]. cbn [ex_derive_n]. apply (ex_derive_ext (fun t => match n with 0%nat => (b + t) ^ 2 | 1%nat => 2 * (b + t) | 2%nat => 2 | _ => 0 end)); [intros u; symmetry; apply sq_derive|].
    destruct n as [|[|[|n]]]; auto_derive; exact I.
  - rewrite sq_derive. destruct m as [|[|[|m]]]; try lia. rewrite Rabs_R0. lra.
Qed.

(** ** two phases, orders 2 and 3 *)
Definition hop_b (ph : nat) : R := match ph with 0%nat => 0 | _ => - (1 / 2) end.
Definition hop_D (t : R) (u x : nat -> R) : Prop := Rabs (x 0%nat) <= 2.
Lemma hop_value ph s t : (ph < 2)%nat -> peval (p_x (hopping ph) s) t = hop_b ph + t.
Proof. intros Hph. destruct ph as [|[|ph]]; [| |lia]; cbn; ring. Qed.
Lemma hop_control ph c t : peval (p_u (hopping ph) c) t = 1.
Proof. destruct ph as [|ph]; cbn; ring. Qed.
Lemma hop_real : exists rs z n, mapM (c_roots (mp_cf hop_mp)) (mp_orders hop_mp) = Ok rs /\
  input_ok hop_mp hop_npath hop_nterm z hop_p /\ widths_ok (mp_nseg hop_mp) 2 hop_p /\ nlp_at hop_mp z hop_p = Ok n /\ feasible n /\
  forall ph cx cu, (ph < 2)%nat -> let w := width hop_mp hop_p ph in let y := user_traj hop_mp z ph in let x := fun _ t => hop_b ph + t in
    y_t0 y < y_tf y /\
    ((forall k, (k < 2)%nat -> SpecResid.seg_polys hop_mp rs y k (cx k) (cu k)) ->
       follows hop_mp w ph y cu x /\ one_sided hop ph (a_of hop y) hop_D 0 /\
       comparable hop_mp w ph y cx cu x hop_D (fun _ => True) 4 1 (fun k => 2 * nth k [2; 3] 0)%nat 0 /\
       forall k q s, nth_error [2; 3]%nat k = Some q -> (s < 1)%nat -> smooth (dyn_time hop_mp w ph y cx cu k s) (seg_start w y k) (seg_start w y (S k)) q 0).
Proof.
  assert (Hmp : mpo_ok hop_mp).
  { constructor; cbn [hop_mp mp_cf mp_nseg mp_orders]; [apply demo_cf_ok; cbn; auto|reflexivity|lia|]. intros p [<-|[<-|[]]]; lia. }
  assert (Hw : widths_ok (mp_nseg hop_mp) (o_nph (mp_ocp hop_mp)) hop_p).
  { split; [reflexivity|]. intros [|[|ph]] Hph; [| |cbn in Hph; lia]; (split; [reflexivity|]; split; [intros x [<-|[<-|[]]]; lra|cbn; field]). }
  destruct (exact_thm hop_mp hop_npath hop_nterm hop_p hopping Hmp hop_ok hop_scales Hw) as (rs & Er & (z & Hz & Hsm) & HE).
  - intros [|[|[|ph]]]; split; reflexivity.
  - exact hop_solves.
  - exact hop_linked.
  - intros [|[|ph]] Hph q Hi; [| |cbn in Hph; lia]; cbn in Hi; destruct Hi as [<-|[<-|[]]]; split; intros; cbn; lia.
  - destruct (HE z Hz Hsm) as (n & En & Hf & _). exists rs, z, n.
    assert (Hin : input_ok hop_mp hop_npath hop_nterm z hop_p) by (constructor; [exact Hmp|exact hop_ok|exact hop_scales|exact Hz|reflexivity]).
    split; [exact Er|]. split; [exact Hin|]. split; [exact Hw|]. split; [exact En|]. split; [exact Hf|].
    intros ph cx cu Hph w y x. specialize (Hsm ph Hph). fold w y in Hsm. destruct (part_widths hop_mp hop_p Hmp Hw ph Hph) as [W1 W2]. fold w in W1, W2.
    pose proof (hop_solves ph Hph) as Hso. clearbody y. destruct Hsm as (E0 & E1 & Hsm'). pose proof (conj E0 (conj E1 Hsm')) as Hs. fold (samples hop_mp rs w (hopping ph) y) in Hs.
    assert (Hlt : y_t0 y < y_tf y) by (rewrite E0, E1; exact (so_time _ _ _ Hso)). split; [exact Hlt|].
    intros Hpoly. assert (Ht : cf_tau0 (mp_cf hop_mp) < cf_tau1 (mp_cf hop_mp)) by (cbn; lra).
    assert (Hlo : (1 <= length (mp_orders hop_mp))%nat) by (cbn; lia).
    assert (Hq : forall q, In q (mp_orders hop_mp) -> (1 <= q)%nat) by (intros q [<-|[<-|[]]]; lia).
    pose proof (rs_len hop_mp rs Er) as Lrs. pose proof (rs_good hop_mp _ _ z hop_p Hin rs Er) as Hg.
    assert (Hnode : forall k q, nth_error (mp_orders hop_mp) k = Some q -> (forall t, peval (cx k 0%nat) t = hop_b ph + seg_time (mp_cf hop_mp) w y k t) /\ (forall t, peval (cu k 0%nat) t = 1)).
    { intros k q Eq. assert (Hk : (k < 2)%nat) by (apply MeshR.nth_error_lt in Eq; exact Eq). destruct (Hpoly k Hk) as [Px Pu]. specialize (Px 0%nat ltac:(cbn; lia)). specialize (Pu 0%nat ltac:(cbn; lia)).
      pose proof (fun j => ExactR.at_node hop_mp rs w (hopping ph) y Ht Hlo Hq Lrs Hg Hs k q j Eq) as Hn.
      assert (H2 : (2 <= q)%nat) by (destruct k as [|[|k]]; [| |lia]; cbn in Eq; injection Eq as <-; lia). split; intros t.
      - rewrite (seg_poly hop_mp rs w y Hlo Lrs Hg k q (p_x (hopping ph) 0%nat) (cx k 0%nat) (fun i => y_x y i 0%nat) Eq); [apply hop_value; exact Hph|destruct ph as [|ph]; cbn; lia| |exact Px].
        intros j Hj. apply (proj1 (Hn j Hj)). cbn. lia.
      - rewrite (seg_poly hop_mp rs w y Hlo Lrs Hg k q (p_u (hopping ph) 0%nat) (cu k 0%nat) (fun i => y_u y i 0%nat) Eq); [apply hop_control|destruct ph as [|ph]; cbn; lia| |exact Pu].
        intros j Hj. apply (proj2 (Hn j Hj)). cbn. lia. }
    assert (Hnk : forall k, (k < 2)%nat -> exists q, nth_error (mp_orders hop_mp) k = Some q).
    { intros [|[|k]] Hk; [| |lia]; eexists; reflexivity. }
    assert (Hrange : forall k tau, (k < 2)%nat -> -1 <= tau <= 1 -> Rabs (hop_b ph + seg_time (mp_cf hop_mp) w y k tau) <= 2).
    { intros k tau Hk Hx. pose proof (ExactR.T_range hop_mp rs w ph (hopping ph) y Ht Hlo Lrs W1 W2 Hs Hso k tau Hk Hx) as X. destruct ph as [|[|ph]]; [| |lia]; cbn [hopping p_t0 p_tf hop_b] in *; apply Rabs_le; lra. }
    assert (Hrun : forall a x' u t, run_on hop ph a x' u t = x' 0%nat * x' 0%nat) by (intros; destruct ph as [|[|ph]]; [reflexivity|reflexivity|lia]).
    assert (Hhk : forall k t, (k < 2)%nat -> seg_time (mp_cf hop_mp) w y k (local (mp_cf hop_mp) w y k t) = t).
    { intros k t Hk. exact (time_of hop_mp w y Ht W1 Hlt k t Hk). }
    split; [|split; [|split]].
    + constructor.
      * intros s t _ _. apply (continuous_plus (V := R_NormedModule)); [apply continuous_const|apply continuous_id].
      * intros k tau s Hk Hta Hs'. cbn zeta. destruct s as [|s]; [|cbn in Hs'; lia]. destruct (Hnk k Hk) as [q Eq]. destruct (Hnode k q Eq) as [_ Hu].
        evar_last; [apply (is_derive_plus (V := R_NormedModule)); [apply (is_derive_const (V := R_NormedModule))|apply (is_derive_id (K := R_AbsRing))]|].
        assert (E : nth 0 (rhs (mp_ocp hop_mp) ph (a_of (mp_ocp hop_mp) y) (fun s => x s (seg_time (mp_cf hop_mp) w y k tau)) (fun c => peval (cu k c) tau) (seg_time (mp_cf hop_mp) w y k tau)) 0 = peval (cu k 0%nat) tau) by (destruct ph as [|[|ph]]; [reflexivity|reflexivity|lia]).
        rewrite E, Hu. cbn. unfold plus, zero, one; cbn. ring.
    + intros t u a b _ _. rewrite Rmult_0_l. cbn [o_nx hop Rsum].
      assert (E : forall a', nth 0 (rhs hop ph (a_of hop y) a' u t) 0 = u 0%nat) by (intros; destruct ph as [|[|ph]]; [reflexivity|reflexivity|lia]). rewrite !E. lra.
    + constructor.
      * intros s Hs'. destruct s as [|s]; [|cbn in Hs'; lia]. rewrite (proj1 (ExactR.at_first hop_mp rs w (hopping ph) y Ht Hlo Hq Lrs Hg W1 W2 Hs) 0%nat) by (cbn; lia). rewrite hop_value by exact Hph. rewrite E0. reflexivity.
      * intros k Hk. apply (ex_RInt_ext (fun t => (hop_b ph + t) ^ 2)).
        { intros t _. unfold run_real. rewrite Hrun. unfold x. match goal with |- @eq _ ?a ?b => change (@eq R a b) end. ring. }
        apply (ex_RInt_continuous (V := R_CompleteNormedModule)). intros t _. apply (ex_derive_continuous (V := R_NormedModule)). auto_derive. exact I.
      * intros k tau Hk Hta. cbn zeta. destruct (Hnk k Hk) as [q Eq]. destruct (Hnode k q Eq) as [Hx _]. unfold hop_D. rewrite Hx. unfold x.
        assert (R1 : -1 <= tau <= 1) by (cbn in Hta; lra). pose proof (Hrange k tau Hk R1). split; assumption.
      * split; exact I.
      * intros t u a b e Da Db He. rewrite !Hrun. unfold hop_D in Da, Db. specialize (He 0%nat ltac:(cbn; lia)).
        replace (a 0%nat * a 0%nat - b 0%nat * b 0%nat) with ((a 0%nat + b 0%nat) * (a 0%nat - b 0%nat)) by ring. rewrite Rabs_mult. pose proof (Rabs_triang (a 0%nat) (b 0%nat)).
        apply Rmult_le_compat; try apply Rabs_pos; lra.
      * intros a b e _ _ He. specialize (He 0%nat ltac:(cbn; lia)). destruct ph as [|[|ph]]; [| |lia]; cbn.
        { replace (0 - 0) with 0 by ring. rewrite Rabs_R0. pose proof (Rabs_pos (a 0%nat - b 0%nat)). lra. }
        rewrite Rmult_1_l. exact He.
      * intros k Hk. destruct (Hnk k Hk) as [q Eq]. destruct (Hnode k q Eq) as [Hx _]. apply (smooth_same _ (fun t => (hop_b ph + t) ^ 2)).
        { intros t. unfold run_time. rewrite Hrun, Hx, (Hhk k t Hk). ring. }
        apply sq_smooth. destruct k as [|[|k]]; cbn in Hk |- *; lia.
    + intros k q s Eq Hs'. destruct s as [|s]; [|lia]. destruct (Hnode k q Eq) as [_ Hu]. apply (smooth_same _ (fun _ => 1)).
      { intros t. rewrite <- (Hu (local (mp_cf hop_mp) w y k t)). unfold dyn_time, dyn_along. destruct ph as [|[|ph]]; [reflexivity|reflexivity|lia]. }
      apply const_smooth. apply (Hq q). apply (nth_error_In _ _ Eq).
Qed.

(** ** order 1: the objective of finer and finer meshes tends to half of the cost *)
Lemma stay_sampled cf K : cfg_ok cf -> (1 <= K)%nat -> let mp := Mpo stay K (repeat 1%nat K) cf in let p := repeat (1 / INR K) K in
  exists rs z n, mapM (c_roots cf) (mp_orders mp) = Ok rs /\ length z = nvars mp /\ fsamples mp rs (width mp p 0) ExSmooth.stays (user_traj mp z 0) /\
    nlp_at mp z p = Ok n /\ feasible n /\ n_f n = 1 / 2 + 1 / (2 * INR K).
Proof.
  intros Hcf HK mp p. assert (Hns : no_slopes stay) by (intros [|[|ph]]; split; reflexivity).
  destruct (smooth_thm cf 1 Hcf) as (C & _ & H).
  destruct (H mp (fun _ => None) (fun _ => None) p (fun _ => ExSmooth.stays) 0 eq_refl) as (rs & Er & (z & Lz & Hz) & HH).
  - constructor; cbn; [exact Hcf|apply repeat_length|exact HK|]. intros q Hq. apply repeat_spec in Hq. lia.
  - intros q Hq. cbn in Hq. apply repeat_spec in Hq. lia.
  - exact stay_ok.
  - exact stay_scales.
  - cbn. apply equal_widths. exact HK.
  - exact Hns.
  - intros ph Hph. change (ph < 1)%nat in Hph. assert (ph = 0)%nat as -> by lia. split; [exact stays_solves|]. intros q _; split; intros; apply (const_smooth 0); lia.
  - exact stay_linked.
  - destruct (HH z Lz Hz) as (n & En & Hx & Hg & _). change (o_nph (mp_ocp mp)) with 1%nat in *. rewrite Nat.mul_1_l in Lz. specialize (Hz 0%nat ltac:(lia)).
    destruct (stay_objective cf K Hcf HK rs z Er Lz Hz) as (n' & En' & Ef).
    assert (n' = n) as -> by (pose proof (eq_trans (eq_sym En') En) as X; injection X as X; exact X).
    exists rs, z, n. split; [exact Er|]. split; [exact Lz|]. split; [exact Hz|]. split; [exact En|]. split; [|exact Ef]. split; [exact Hx|].
    assert (G : sat_within 0 (n_g n)) by (apply Hg; [lra|intros; lra|intros; lra]). intros i Hi. destruct (G i Hi) as [A B]. rewrite Rplus_0_r in A. rewrite Rminus_0_r in B. split; assumption.
Qed.
Lemma stay_real : exists o npath nterm, ocp_ok o npath nterm /\ scales_pos o /\ o_nph o = 1%nat /\ forall cf K, cfg_ok cf -> (1 <= K)%nat ->
  let mp := Mpo o K (repeat 1%nat K) cf in let p := repeat (1 / INR K) K in
  exists z n rs cx cu x, let w := width mp p 0 in let y := user_traj mp z 0 in
    input_ok mp npath nterm z p /\ widths_ok K 1 p /\ nlp_at mp z p = Ok n /\ feasible n /\ y_t0 y < y_tf y /\
    mapM (c_roots cf) (mp_orders mp) = Ok rs /\ (forall k, (k < K)%nat -> SpecResid.seg_polys mp rs y k (cx k) (cu k)) /\
    follows mp w 0 y cu x /\ one_sided o 0 (a_of o y) (fun _ _ _ => True) 0 /\
    comparable mp w 0 y cx cu x (fun _ _ _ => True) (fun _ => True) 0 0 (fun _ => 3%nat) 0 /\
    (forall k s, (k < K)%nat -> (s < o_nx o)%nat -> smooth (dyn_time mp w 0 y cx cu k s) (seg_start w y k) (seg_start w y (S k)) 1 0) /\
    n_f n = 1 / 2 + 1 / (2 * INR K) /\ real_cost mp w 0 y cu x = 1.
Proof.
  exists stay, (fun _ => None), (fun _ => None). split; [exact stay_ok|]. split; [exact stay_scales|]. split; [reflexivity|]. intros cf K Hcf HK mp p.
  assert (HL : length (repeat 1%nat K) = K) by apply repeat_length.
  destruct (stay_sampled cf K Hcf HK) as (rs & z & n & Er & Lz & Hs & En & Hf & Ef). fold mp p in Er, Lz, Hs, En.
  assert (Hin : input_ok mp (fun _ => None) (fun _ => None) z p).
  { constructor; [|exact stay_ok|exact stay_scales|change (o_nph (mp_ocp mp)) with 1%nat; rewrite Nat.mul_1_l; exact Lz|cbn; unfold p; rewrite repeat_length; lia].
    constructor; cbn; [exact Hcf|exact HL|exact HK|]. intros q Hq. apply repeat_spec in Hq. lia. }
  pose proof (co_taus _ Hcf) as Ht. assert (HKp : 0 < INR K) by (apply lt_0_INR; lia).
  exists z, n, rs, (fun _ _ => [0]), (fun _ _ => [0]), (fun _ _ => 0). intros w y. assert (Hw : widths_ok K 1 p) by (apply equal_widths; exact HK).
  destruct (part_widths mp p (in_mpo _ _ _ _ _ Hin) Hw 0%nat ltac:(cbn; lia)) as [W1 W2]. fold w in W1, W2.
  pose proof (rs_len mp rs Er) as Lrs. pose proof (rs_good mp _ _ z p Hin rs Er) as Hg. fold w y in Hs. clearbody y.
  assert (E0 : y_t0 y = 0) by exact (proj1 Hs). assert (E1 : y_tf y = 1) by exact (proj1 (proj2 Hs)).
  assert (Hlo : (1 <= length (mp_orders mp))%nat) by (cbn; rewrite HL; exact HK).
  assert (Hq : forall q, In q (mp_orders mp) -> (1 <= q)%nat) by (intros q Hq; cbn in Hq; apply repeat_spec in Hq; lia).
  assert (Ho : forall k q, nth_error (mp_orders mp) k = Some q -> q = 1%nat) by (intros k q Eq; apply nth_error_In in Eq; cbn in Eq; apply repeat_spec in Eq; exact Eq).
  assert (Hnk : forall k, (k < K)%nat -> nth_error (mp_orders mp) k = Some 1%nat).
  { intros k Hk. cbn. rewrite (nth_error_nth' _ 0%nat) by (rewrite repeat_length; exact Hk). rewrite nth_repeat_in by exact Hk. reflexivity. }
  assert (Hrun : forall k t, run_real mp w 0 y (fun _ _ => [0]) (fun _ _ => 0) k t = 1) by reflexivity.
  assert (Hzero : forall v, peval [0] v = 0) by (intros v; cbn; ring).
  split; [exact Hin|]. split; [exact Hw|]. split; [exact En|]. split; [exact Hf|]. split; [lra|]. split; [exact Er|]. split; [|split; [|split; [|split; [|split; [|split]]]]].
  - intros k Hk. pose proof (Hnk k Hk) as Eq.
    assert (Lr0 : length (nth k rs []) = 2%nat) by (apply (Hg k 1%nat _ Eq); apply nth_error_nth'; apply (Nat.lt_le_trans _ _ _ Hk); rewrite <- HL; apply Nat.eq_le_incl; symmetry; exact Lrs).
    split; intros s Hs'; (split; [cbn [length]; clear - Lr0; nred; lia|]; intros j Hj; rewrite Hzero; symmetry;
      destruct (SmoothR.at_node mp rs w ExSmooth.stays y Ht Hlo Hq Lrs Hg Hs k 1%nat j Eq ltac:(clear - Lr0 Hj; nred; lia)) as [A B]).
    + etransitivity; [apply A; exact Hs'|reflexivity].
    + etransitivity; [apply B; exact Hs'|reflexivity].
  - constructor.
    + intros s t _ _. apply continuous_const.
    + intros k tau s Hk Hta Hs'. cbn zeta. destruct s as [|s]; [|cbn in Hs'; lia]. evar_last; [apply (is_derive_const (V := R_NormedModule))|]. cbn. unfold zero; cbn. ring.
  - intros t u a b _ _. rewrite Rmult_0_l. cbn. lra.
  - constructor.
    + intros s Hs'. symmetry. pose proof (SmoothR.at_node mp rs w ExSmooth.stays y Ht Hlo Hq Lrs Hg Hs 0%nat 1%nat 0%nat (Hnk 0%nat ltac:(lia)) ltac:(lia)) as [A _].
      specialize (A s Hs'). assert (Eo : (offset (mp_orders mp) 0 + 0)%nat = 0%nat) by (destruct (mp_orders mp); reflexivity). rewrite Eo in A. etransitivity; [exact A|reflexivity].
    + intros k Hk. apply (ex_RInt_ext (fun _ => 1)); [intros t _; reflexivity|]. apply (ex_RInt_const (V := R_NormedModule)).
    + intros k tau Hk Hta. split; exact I.
    + split; exact I.
    + intros t u a b e _ _ _. cbn. replace (1 - 1) with 0 by ring. rewrite Rabs_R0. lra.
    + intros a b e _ _ _. cbn. replace (0 - 0) with 0 by ring. rewrite Rabs_R0. lra.
    + intros k Hk. apply (smooth_same _ (fun _ => 1)); [intros t; reflexivity|]. apply const_smooth. lia.
  - intros k s Hk Hs'. destruct s as [|s]; [|cbn in Hs'; lia]. apply (smooth_same _ (fun _ => 0)); [intros t; cbn; ring|]. apply const_smooth. lia.
  - exact Ef.
  - unfold real_cost. rewrite (Rsum_ext (length (mp_orders mp)) _ w).
    + rewrite W2. cbn. ring.
    + intros k Hk. rewrite (RInt_ext _ (fun _ => 1)) by (intros t _; apply Hrun). rewrite (RInt_const (V := R_CompleteNormedModule)). unfold seg_start. cbn [Rsum]. rewrite E0, E1. unfold scal; cbn; unfold mult; cbn. ring.
Qed.
