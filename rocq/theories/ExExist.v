(** The cart of C60 has a best motion on its mesh; problems without one (examples for C71). *)
From Coq Require Import Reals Lia Lra Psatz Bool Arith String.
From Coquelicot Require Import Coquelicot.
From Coq Require Import List.
From Verif Require Import Num PyList Mat Poly Roots Colloc Ocp Transcribe Spec SpecOcp SpecHadapt SpecExact SpecCoord SpecExist NumR ListR PolyR MeshR BlockR DiscR NlpR NlpThm ScaleR ConvexR TransR ExOcp ExGlide ExTrack ExistR.
Import ListNotations.
Open Scope R_scope.

(** ** the cart *)
Lemma tends_nth n l l' i : tends n l l' -> is_lim_seq (fun k => nth i (l k) 0) (nth i l' 0).
Proof.
  intros (A & B & C). destruct (lt_dec i n) as [H|H]; [apply C; exact H|]. rewrite nth_overflow by lia.
  apply (lim_ext (fun _ => 0)); [|apply is_lim_seq_const]. intros k. symmetry. apply nth_overflow. rewrite A. lia.
Qed.
Lemma glide_continuous ph : (ph < 1)%nat -> continuous_phase glide ph.
Proof.
  intros Hph. assert (ph = 0)%nat as -> by lia. constructor; cbn [glide o_dyn o_path o_run o_term o_mayer o_nx o_nu o_na nth_error].
  - intros f x u t a d x' u' t' a' d' Hf Hx Hu Ht Ha Ed Ed' i. injection Hf as <-. injection Ed' as <-.
    apply (lim_ext (fun k => nth i [nth 1 (x k) 0; nth 0 (u k) 0] 0)); [intros k; specialize (Ed k); injection Ed as Ed; rewrite <- Ed; reflexivity|].
    destruct i as [|[|i]]; cbn [nth]; [exact (tends_nth _ _ _ 1 Hx)|exact (tends_nth _ _ _ 0 Hu)|destruct i; apply is_lim_seq_const].
  - intros f x u t a d x' u' t' a' d' Hf Hx Hu Ht Ha Ed Ed' i. injection Hf as <-. injection Ed' as <-.
    apply (lim_ext (fun k => nth i [nth 1 (x k) 0 * nth 1 (x k) 0 - 4] 0)); [intros k; specialize (Ed k); injection Ed as Ed; rewrite <- Ed; reflexivity|].
    destruct i as [|i]; cbn [nth]; [|destruct i; apply is_lim_seq_const].
    apply (is_lim_seq_minus' (fun k => nth 1 (x k) 0 * nth 1 (x k) 0) (fun _ => 4)); [|apply is_lim_seq_const]. apply (is_lim_seq_mult' (fun k => nth 1 (x k) 0) (fun k => nth 1 (x k) 0)); exact (tends_nth _ _ _ 1 Hx).
  - intros f x u t a d x' u' t' a' d' Hf Hx Hu Ht Ha Ed Ed'. injection Hf as <-. injection Ed' as <-.
    apply (lim_ext (fun k => nth 0 (u k) 0 * nth 0 (u k) 0)); [intros k; specialize (Ed k); injection Ed as Ed; rewrite <- Ed; reflexivity|].
    apply (is_lim_seq_mult' (fun k => nth 0 (u k) 0) (fun k => nth 0 (u k) 0)); exact (tends_nth _ _ _ 0 Hu).
  - intros f xf tf x0 t0 a d xf' tf' x0' t0' a' d' Hf Hx Ht Hx0 Ht0 Ha Ed Ed' i. injection Hf as <-. injection Ed' as <-.
    apply (lim_ext (fun k => nth i [nth 0 (xf k) 0 - 1; nth 1 (xf k) 0] 0)); [intros k; specialize (Ed k); injection Ed as Ed; rewrite <- Ed; reflexivity|].
    destruct i as [|[|i]]; cbn [nth]; [|exact (tends_nth _ _ _ 1 Hx)|destruct i; apply is_lim_seq_const].
    apply (is_lim_seq_minus' (fun k => nth 0 (xf k) 0) (fun _ => 1)); [exact (tends_nth _ _ _ 0 Hx)|apply is_lim_seq_const].
  - intros f xf tf x0 t0 a d xf' tf' x0' t0' a' d' Hf Hx Ht Hx0 Ht0 Ha Ed Ed'. injection Hf as <-. injection Ed' as <-.
    apply (lim_ext (fun _ => 0)); [intros k; specialize (Ed k); injection Ed as Ed; exact Ed|apply is_lim_seq_const].
Qed.
Lemma glide_bounded ph : (ph < 1)%nat -> bounded_phase glide ph.
Proof.
  intros Hph. assert (ph = 0)%nat as -> by lia. constructor; cbn.
  - intros [|[|s]] Hs; [| |lia]; do 2 eexists; split; reflexivity.
  - intros [|s] Hs; [|lia]; do 2 eexists; split; reflexivity.
  - do 2 eexists; split; reflexivity.
  - do 2 eexists; split; reflexivity.
  - intros i Hi. lia.
Qed.
Lemma glide_best cf K orders p : cfg_ok cf -> (1 <= K)%nat -> length orders = K -> (forall q, In q orders -> (4 <= q)%nat) -> widths_ok K 1 p ->
  exists z, length z = nvars (Mpo glide K orders cf) /\ best (Mpo glide K orders cf) p z.
Proof.
  intros Hcf HK Hlen Hq Hw. assert (Hpos : forall q, In q orders -> (1 <= q)%nat) by (intros q Hi; apply Hq in Hi; lia).
  destruct (glide_point cf K orders p Hcf HK Hlen Hpos Hw 0 ltac:(lra) Hq) as (rs & z & n & _ & Hz & _ & En & Hf & _).
  pose proof (glide_mpo cf K orders Hcf HK Hlen Hpos) as Hm. set (mp := Mpo glide K orders cf) in *.
  assert (I : input_ok mp glide_npath glide_nterm z p).
  { constructor; [exact Hm|exact glide_ok|exact glide_scales|change (o_nph (mp_ocp mp)) with 1%nat; nred; lia|destruct Hw as [W _]; cbn; nred; lia]. }
  destruct (exists_thm mp _ _ z n p I En Hf glide_continuous glide_bounded) as (z' & I' & B). exists z'. split; [|exact B].
  pose proof (in_z _ _ _ _ _ I') as L. change (o_nph (mp_ocp mp)) with 1%nat in L. clear - L. nred. lia.
Qed.

(** ** x' = u from 0, times 0 to 1, final cost g(x): the cost can be g(v) for every v within the bounds *)
Definition drift (lo hi : ext R) (g : R -> R) : ocp Rnum :=
  Ocp (N := Rnum) 1 1 0 1
    [fun _ u _ _ => Ok [nth 0 u 0]] [fun _ _ _ _ => Ok None] [fun xf _ _ _ _ => Ok (Some (g (nth 0 xf 0)))]
    [fun _ _ _ _ => Ok (Some 0)] [fun _ _ _ _ _ => Ok None] []
    [1] [1] [] 1 [[0]] [[0]] [[0]] [[0]] [[0]] [[1]] [[]]
    [[lo]] [[hi]] [[lo]] [[hi]] [[]] [[]]
    [[Fin 0]] [[Fin 0]] [[Fin 1]] [[Fin 1]] [] [] [false] [Fin (-15)] [Fin 15] [false] [false].
(** the bounds leave room: some numbers at most 0 and at least 0 *)
Definition around (lo hi : ext R) : Prop := (lo = NInf \/ exists a, lo = Fin a /\ a <= 0) /\ (hi = PInf \/ exists b, hi = Fin b /\ 0 <= b).
Lemma drift_ok lo hi g : around lo hi -> ocp_ok (drift lo hi g) (fun _ => None) (fun _ => None).
Proof.
  intros [Hl Hh]. constructor.
  { constructor; cbn; auto; try (apply shaped1; reflexivity).
    - split; [reflexivity|]. intros H. lia.
    - split; [reflexivity|]. intros H. lia.
    - intros [|i] [|j] Hi Hj; try lia; cbn. destruct Hl as [-> |(a & -> & Ha)], Hh as [-> |(b & -> & Hb)]; cbn; auto; lra.
    - intros [|i] [|j] Hi Hj; try lia; cbn. destruct Hl as [-> |(a & -> & Ha)], Hh as [-> |(b & -> & Hb)]; cbn; auto; lra.
    - intros i j Hi Hj; lia.
    - intros [|i] [|j] Hi Hj; try lia; cbn; lra.
    - intros [|i] [|j] Hi Hj; try lia; cbn; lra.
    - intros i j Hi Hj; lia. }
  - cbn; lia.
  - intros ph f x u t a H _ _ _. one ph H; eexists; split; reflexivity.
  - intros ph f x u t a H _ _ _. one ph H; eexists; reflexivity.
  - intros ph f xf tf y0 t0 a H _ _ _. one ph H; eexists; reflexivity.
  - intros ph f x u t a H _ _ _. one ph H; reflexivity.
  - intros ph f xf tf y0 t0 a H _ _ _. one ph H; reflexivity.
  - reflexivity.
  - reflexivity.
  - reflexivity.
  - reflexivity.
  - reflexivity.
  - intros; cbn; lia.
  - intros i j [].
  - cbn; lia.
  - cbn; intros H; lia.
Qed.
Lemma drift_scales lo hi g : scales_pos (drift lo hi g).
Proof. constructor; cbn; [intros s [<-|[]]; lra|intros s [<-|[]]; lra|intros s []|lra]. Qed.
Definition drift_mp lo hi g (K : nat) : mpo Rnum := Mpo (drift lo hi g) K (repeat 1%nat K) (demo_cf "LGR").
Lemma drift_mpo lo hi g K : (1 <= K)%nat -> mpo_ok (drift_mp lo hi g K).
Proof.
  intros HK. constructor; cbn [drift_mp mp_cf mp_nseg mp_orders]; [apply demo_cf_ok; cbn; auto|apply repeat_length|exact HK|].
  intros p Hp. apply repeat_spec in Hp. lia.
Qed.
Lemma drift_input lo hi g K z : (1 <= K)%nat -> around lo hi -> length z = nvars (drift_mp lo hi g K) -> input_ok (drift_mp lo hi g K) (fun _ => None) (fun _ => None) z (swing_p K).
Proof.
  intros HK Ha Hz. constructor; [apply drift_mpo; exact HK|apply drift_ok; exact Ha|apply drift_scales| |cbn; unfold swing_p; rewrite repeat_length; lia].
  change (o_nph (mp_ocp (drift_mp lo hi g K))) with 1%nat. nred. lia.
Qed.
Lemma drift_cost lo hi g K w y : Rsum 1 (fun ph => node_cost (drift_mp lo hi g K) (repeat [-1; 1] K) (w ph) ph (y ph)) = g (y_x (y 0%nat) (total_nodes (repeat 1%nat K) - 1)%nat 0%nat).
Proof.
  cbn [Rsum]. unfold node_cost.
  match goal with |- 0 + (?a + ?S0) = ?b => change a with b; assert (E : S0 = 0); [|rewrite E; ring] end.
  apply Rsum_0. intros k Hk. unfold seg_cost.
  match goal with |- ?a * ?S0 = 0 => assert (E : S0 = 0); [|change (a * S0 = 0); rewrite E; ring] end.
  apply Rsum_0. intros j Hj.
  match goal with |- ?a * ?r = _ => change (a * 0 = 0) end. ring.
Qed.
Lemma within_share lo hi v s : around lo hi -> within lo hi v -> 0 <= s <= 1 -> within lo hi (v * s).
Proof.
  intros [Hl Hh] [A B] Hs. split.
  - destruct Hl as [-> |(a & -> & Ha)]; cbn in *; [exact I|]. destruct (Rle_dec 0 v); [assert (0 <= v * s) by (apply Rmult_le_pos; lra); lra|]. nra.
  - destruct Hh as [-> |(b & -> & Hb)]; cbn in *; [exact I|]. destruct (Rle_dec v 0); [assert (0 <= - v * s) by (apply Rmult_le_pos; lra); lra|]. nra.
Qed.
Definition drifting (K : nat) (v : R) : utraj := Utraj (fun i _ => v * (INR i / INR K)) (fun _ _ => v) 0 1 (fun _ => 0).
Lemma drift_pack lo hi g K v : (1 <= K)%nat -> around lo hi -> within lo hi v -> let z := pack (drift_mp lo hi g K) (fun _ => drifting K v) in
  exists n, length z = nvars (drift_mp lo hi g K) /\ nlp_at (drift_mp lo hi g K) z (swing_p K) = Ok n /\ feasible n /\ n_f n = g v.
Proof.
  intros HK Ha Hv. assert (HKp : 0 < INR K) by (apply lt_0_INR; lia). set (mp := drift_mp lo hi g K). set (y := drifting K v).
  assert (Hz : length (pack mp (fun _ => y)) = nvars mp) by (rewrite length_pack; change (o_nph (mp_ocp mp)) with 1%nat; lia).
  pose proof (drift_input lo hi g K _ HK Ha Hz) as I. intros z.
  destruct (nlp_like mp _ _ _ _ (fun _ => y) I) as (rs & n & Er & En & Hlen & Hf & Hc).
  { intros ph Hph. exact (pack_traj mp (fun _ => y) ph (ok_shapes _ _ _ (drift_ok _ _ _ Ha)) (drift_scales _ _ _) Hph). }
  assert (rs = repeat [-1; 1] K) as -> by (pose proof (eq_trans (eq_sym Er) (swing_roots K)) as X; injection X as X; exact X).
  assert (SN : (total_nodes (repeat 1 K) - 1 = K)%nat) by (pose proof (swing_nodes K) as X; cbn [swing_mp mp_orders] in X; lia).
  exists n. split; [exact Hz|]. split; [exact En|]. split.
  - apply Hf. split; [|split].
    + intros ph Hph. cbn in Hph. assert (ph = 0)%nat as -> by lia. split; [|split; [|split; [|split]]].
      * intros i s Hi Hs. cbn in Hs. assert (s = 0)%nat as -> by lia. cbn. destruct (Nat.eqb_spec i 0) as [-> |Hn]; cbn; [nred; field; lra|].
        apply within_share; [exact Ha|exact Hv|]. assert (INR i <= INR K) by (apply le_INR; cbn [mp drift_mp mp_orders] in Hi; clear - Hi SN; nred; lia).
        pose proof (pos_INR i). split; [apply Rdiv_le_0_compat; lra|]. apply Rmult_le_reg_r with (INR K); [lra|]. unfold Rdiv. rewrite Rmult_assoc, Rinv_l by lra. lra.
      * intros i c Hi Hs. cbn in Hs. assert (c = 0)%nat as -> by lia. exact Hv.
      * split; cbn; lra.
      * split; cbn; lra.
      * intros i Hi. cbn in Hi. lia.
    + intros ph Hph. cbn in Hph. assert (ph = 0)%nat as -> by lia. split; [|split; [|split; [|split; [|split]]]].
      * intros i k j s c Ho Hs Hc'. cbn in Hs. assert (s = 0)%nat as -> by lia.
        assert (Hk : (k < K)%nat) by (destruct Ho as (q & Eq & _); pose proof (nth_error_lt _ _ _ Eq) as X; cbn in X; rewrite repeat_length in X; exact X).
        pose proof (demo_line K k _ c Hk Hc') as L. cbn beta in L.
        assert (E : (y_x y (S k) 0 - y_x y k 0) / 2 = v / INR K / 2) by (unfold y, drifting; cbv beta iota delta [y_x]; rewrite S_INR; field; lra).
        replace (seg_h (mp_cf mp) (width mp (swing_p K) 0) y k * _) with ((y_x y (S k) 0 - y_x y k 0) / 2).
        -- eapply line_derive. exact L.
        -- rewrite E. clear E. unfold seg_h. change (width mp (swing_p K) 0 k) with (width (swing_mp K) (swing_p K) 0 k). rewrite swing_width by exact Hk.
           match goal with |- _ = _ * ?d => change d with v end. cbn; nred; field; lra.
      * intros i k j c _ [].
      * intros H; discriminate H.
      * intros H; discriminate H.
      * intros H; discriminate H.
      * intros c [].
    + intros H. cbn in H. lia.
  - apply (eq_trans Hc). change (o_nph (mp_ocp mp)) with 1%nat. etransitivity; [exact (drift_cost lo hi g K (width mp (swing_p K)) (fun _ => y))|].
    rewrite SN. unfold y, drifting. cbn [y_x]. match goal with |- @eq _ ?a ?b => change (@eq R a b) end. f_equal. field. lra.
Qed.
Lemma drift_point lo hi g K v : (1 <= K)%nat -> around lo hi -> within lo hi v ->
  exists z n, length z = nvars (drift_mp lo hi g K) /\ nlp_at (drift_mp lo hi g K) z (swing_p K) = Ok n /\ feasible n /\ n_f n = g v.
Proof. intros HK Ha Hv. exists (pack (drift_mp lo hi g K) (fun _ => drifting K v)). exact (drift_pack lo hi g K v HK Ha Hv). Qed.
Lemma drift_value lo hi g K (z : list R) n : (1 <= K)%nat -> around lo hi -> length z = nvars (drift_mp lo hi g K) -> nlp_at (drift_mp lo hi g K) z (swing_p K) = Ok n -> feasible n ->
  exists v, within lo hi v /\ n_f n = g v.
Proof.
  intros HK Ha Hz En Hf. set (mp := drift_mp lo hi g K) in *. pose proof (drift_input lo hi g K _ HK Ha Hz) as I.
  destruct (nlp_like mp _ _ _ _ (user_traj mp z) I (fun ph _ => same_refl _ _)) as (rs & n' & Er & En' & Hlen & HF & Hc).
  assert (n' = n) as -> by (pose proof (eq_trans (eq_sym En') En) as X; injection X as X; exact X).
  assert (rs = repeat [-1; 1] K) as -> by (pose proof (eq_trans (eq_sym Er) (swing_roots K)) as X; injection X as X; exact X).
  assert (SN : total_nodes (repeat 1%nat K) = S K) by exact (swing_nodes K).
  exists (y_x (user_traj mp z 0) (total_nodes (repeat 1%nat K) - 1) 0%nat). split.
  - apply HF in Hf. destruct (proj1 Hf 0%nat ltac:(cbn; lia)) as (Hx & _). specialize (Hx K 0%nat).
    assert (A : (K < total_nodes (mp_orders mp))%nat) by (cbn [mp drift_mp mp_orders]; lia). specialize (Hx A ltac:(cbn; lia)). clear HF.
    set (y := user_traj mp z 0) in *. clearbody y. rewrite SN. replace (S K - 1)%nat with K by lia. cbn in Hx. destruct (Nat.eqb_spec K 0) as [E|_]; [lia|]. exact Hx.
  - apply (eq_trans Hc). exact (drift_cost lo hi g K (width mp (swing_p K)) (user_traj mp z)).
Qed.
Lemma drift_none lo hi g K : (1 <= K)%nat -> around lo hi -> (forall v, within lo hi v -> exists v', within lo hi v' /\ g v' < g v) ->
  ~ exists z, length z = nvars (drift_mp lo hi g K) /\ best (drift_mp lo hi g K) (swing_p K) z.
Proof.
  intros HK Ha Hg (z & Hz & n & En & Hf & Hb). destruct (drift_value lo hi g K z n HK Ha Hz En Hf) as (v & Hv & E). destruct (Hg v Hv) as (v' & Hv' & Hl).
  destruct (drift_point lo hi g K v' HK Ha Hv') as (z' & n' & Hz' & En' & Hf' & E'). pose proof (Hb z' n' (eq_trans Hz' (eq_sym Hz)) En' Hf') as B.
  apply (Rlt_irrefl (g v)). apply Rle_lt_trans with (2 := Hl). rewrite <- E, <- E'. exact B.
Qed.

(** without bounds: cost exp(x) *)
Lemma drift_continuous lo hi g : (forall v, continuous g v) -> continuous_phase (drift lo hi g) 0.
Proof.
  intros Hg. constructor; cbn [drift o_dyn o_path o_run o_term o_mayer o_nx o_nu o_na nth_error].
  - intros f x u t a d x' u' t' a' d' Hf Hx Hu Ht Ha Ed Ed' i. injection Hf as <-. injection Ed' as <-.
    apply (lim_ext (fun k => nth i [nth 0 (u k) 0] 0)); [intros k; specialize (Ed k); injection Ed as Ed; rewrite <- Ed; reflexivity|].
    destruct i as [|i]; cbn [nth]; [exact (tends_nth _ _ _ 0 Hu)|destruct i; apply is_lim_seq_const].
  - intros f x u t a d x' u' t' a' d' Hf Hx Hu Ht Ha Ed. injection Hf as <-. discriminate (Ed 0%nat).
  - intros f x u t a d x' u' t' a' d' Hf Hx Hu Ht Ha Ed Ed'. injection Hf as <-. injection Ed' as <-.
    apply (lim_ext (fun _ => 0)); [intros k; specialize (Ed k); injection Ed as Ed; exact Ed|apply is_lim_seq_const].
  - intros f xf tf x0 t0 a d xf' tf' x0' t0' a' d' Hf Hx Ht Hx0 Ht0 Ha Ed. injection Hf as <-. discriminate (Ed 0%nat).
  - intros f xf tf x0 t0 a d xf' tf' x0' t0' a' d' Hf Hx Ht Hx0 Ht0 Ha Ed Ed'. injection Hf as <-. injection Ed' as <-.
    apply (lim_ext (fun k => g (nth 0 (xf k) 0))); [intros k; specialize (Ed k); injection Ed as Ed; exact Ed|].
    apply (is_lim_seq_continuous g); [apply continuity_pt_filterlim; apply Hg|exact (tends_nth _ _ _ 0 Hx)].
Qed.
Lemma unbounded_thm K : (1 <= K)%nat -> exists (o : ocp Rnum), let mp := Mpo o K (repeat 1%nat K) (demo_cf "LGR") in
  (forall z, length z = nvars mp -> input_ok mp (fun _ => None) (fun _ => None) z (swing_p K)) /\ o_nph o = 1%nat /\ continuous_phase o 0 /\
  (exists z n, length z = nvars mp /\ nlp_at mp z (swing_p K) = Ok n /\ feasible n) /\
  (forall (z : list R) n, length z = nvars mp -> nlp_at mp z (swing_p K) = Ok n -> feasible n -> 0 < n_f n) /\
  ~ exists z, length z = nvars mp /\ best mp (swing_p K) z.
Proof.
  intros HK. assert (Ha : around NInf PInf) by (split; left; reflexivity). exists (drift NInf PInf exp). intros mp.
  split; [intros z; exact (drift_input NInf PInf exp K z HK Ha)|]. split; [reflexivity|]. split; [apply drift_continuous; intros v; apply (ex_derive_continuous (K := R_AbsRing) (V := R_NormedModule)); exists (exp v); apply is_derive_exp|]. split; [|split].
  - destruct (drift_point NInf PInf exp K 0 HK Ha ltac:(split; exact I)) as (z & n & A & B & C & _). exists z, n. auto.
  - intros z n Hz En Hf. destruct (drift_value NInf PInf exp K z n HK Ha Hz En Hf) as (v & _ & E). nred. rewrite E. apply exp_pos.
  - apply drift_none; [exact HK|exact Ha|]. intros v _. exists (v - 1). split; [split; exact I|]. apply exp_increasing. lra.
Qed.
(** with finite bounds and a cost that jumps: x if x > 0, otherwise 1 *)
Definition jump (v : R) : R := if Rle_dec v 0 then 1 else v.
Lemma jumping_thm K : (1 <= K)%nat -> exists (o : ocp Rnum), let mp := Mpo o K (repeat 1%nat K) (demo_cf "LGR") in
  (forall z, length z = nvars mp -> input_ok mp (fun _ => None) (fun _ => None) z (swing_p K)) /\ o_nph o = 1%nat /\ bounded_phase o 0 /\
  (exists z n, length z = nvars mp /\ nlp_at mp z (swing_p K) = Ok n /\ feasible n) /\
  (forall (z : list R) n, length z = nvars mp -> nlp_at mp z (swing_p K) = Ok n -> feasible n -> 0 < n_f n) /\
  ~ exists z, length z = nvars mp /\ best mp (swing_p K) z.
Proof.
  intros HK. assert (Ha : around (Fin (-1)) (Fin 1)) by (split; right; eexists; (split; [reflexivity|lra])). exists (drift (Fin (-1)) (Fin 1) jump). intros mp.
  split; [intros z; exact (drift_input _ _ jump K z HK Ha)|]. split; [reflexivity|]. split; [|split; [|split]].
  - constructor; cbn; [intros [|s] Hs; [|lia]|intros [|s] Hs; [|lia]| | |intros i Hi; lia]; do 2 eexists; split; reflexivity.
  - destruct (drift_point _ _ jump K 0 HK Ha ltac:(split; cbn; lra)) as (z & n & A & B & C & _). exists z, n. auto.
  - intros z n Hz En Hf. destruct (drift_value _ _ jump K z n HK Ha Hz En Hf) as (v & _ & E). nred. rewrite E. unfold jump. destruct (Rle_dec v 0); lra.
  - apply drift_none; [exact HK|exact Ha|]. intros v [A B]. cbn in A, B. destruct (Rle_dec v 0) as [H|H].
    + exists (1 / 2). split; [split; cbn; lra|]. unfold jump. destruct (Rle_dec v 0), (Rle_dec (1 / 2) 0); lra.
    + exists (v / 2). split; [split; cbn; lra|]. unfold jump. destruct (Rle_dec v 0), (Rle_dec (v / 2) 0); lra.
Qed.
