(** States that move at the speed of their controls, any number of them (examples for C84). *)
From Coq Require Import Reals Lia Lra Bool Arith String.
From Coquelicot Require Import Coquelicot.
From Coq Require Import List.
From Verif Require Import Num PyList Mat Poly Roots Colloc Ocp Transcribe Spec SpecOcp SpecCoord SpecBeside NumR ListR PolyR CollocR CompR CollocThm MeshR BlockR DiscR NlpR OcpR NlpThm ScaleR CostR ConvexR TransR ExOcp ExNlp ExTail BesideR.
Import ListNotations.
Open Scope R_scope.

Fixpoint total_of (l : list R) : R := match l with [] => 0 | x :: t => x + total_of t end.
(** x' = u for n states, which start at 0 and stay non-negative; u is at most 1; the end time is between lo and hi;
    the cost is c times the end time and the sum of the final states *)
Definition movers (n : nat) (c lo hi : R) : ocp Rnum :=
  Ocp (N := Rnum) n n 0 1
    [fun _ u _ _ => Ok u] [fun _ u _ _ => Ok (Some (map (fun v => v - 1) u))] [fun xf tf _ _ _ => Ok (Some (c * tf + total_of xf))]
    [fun _ _ _ _ => Ok (Some 0)] [fun _ _ _ _ _ => Ok None] []
    (repeat 1 n) (repeat 1 n) [] 1 [repeat 0 n] [repeat 0 n] [repeat 0 n] [repeat 0 n] [[0]] [[lo]] [[]]
    [repeat (Fin 0) n] [repeat PInf n] [repeat NInf n] [repeat PInf n] [[]] [[]]
    [[Fin 0]] [[Fin 0]] [[Fin lo]] [[Fin hi]] [] [] [false] [Fin (-15)] [Fin 15] [false] [false].
Lemma movers_ok n c lo hi : (1 <= n)%nat -> lo <= hi -> ocp_ok (movers n c lo hi) (fun _ => Some n) (fun _ => None).
Proof.
  intros Hn Hlh. constructor.
  { constructor; cbn; auto; try (apply shaped1; first [reflexivity|apply repeat_length]); try apply repeat_length.
    - split; [reflexivity|]. intros H. lia.
    - split; [reflexivity|]. intros H. lia.
    - intros [|i] j Hi Hj; try lia; cbn; rewrite !nth_repeat_in by exact Hj; cbn; auto; lra.
    - intros [|i] j Hi Hj; try lia; cbn; rewrite !nth_repeat_in by exact Hj; cbn; auto; lra.
    - intros i j Hi Hj; lia.
    - intros [|i] [|j] Hi Hj; try lia; cbn; auto; lra.
    - intros [|i] [|j] Hi Hj; try lia; cbn; auto; lra.
    - intros i j Hi Hj; lia. }
  - exact Hn.
  - intros ph f x u t b H _ Hu _. one ph H; eexists; split; [reflexivity|exact Hu].
  - intros ph f x u t b H _ _ _. one ph H; eexists; reflexivity.
  - intros ph f xf tf y0 t0 b H _ _ _. one ph H; eexists; reflexivity.
  - intros ph f x u t b H _ Hu _. one ph H; eexists; split; [reflexivity|]; exact (eq_trans (map_length _ _) Hu).
  - intros ph f xf tf y0 t0 b H _ _ _. one ph H; reflexivity.
  - reflexivity.
  - reflexivity.
  - reflexivity.
  - reflexivity.
  - reflexivity.
  - intros ph _. exact Hn.
  - intros i j [].
  - cbn; lia.
  - cbn; intros H; lia.
Qed.
Lemma movers_scales n c lo hi : scales_pos (movers n c lo hi).
Proof. constructor; cbn; [intros s H; apply repeat_spec in H; subst; lra|intros s H; apply repeat_spec in H; subst; lra|intros s []|lra]. Qed.
Lemma total_app l m : total_of (l ++ m) = total_of l + total_of m.
Proof. induction l as [|x l IH]; cbn; [ring|rewrite IH; ring]. Qed.
Lemma movers_beside n m c d lo hi : lo <= hi -> beside (movers (n + m) (c + d) lo hi) (movers n c lo hi) (movers m d lo hi).
Proof.
  intros Hlh. constructor; cbn [movers o_nph o_links o_nx o_nu o_na o_scale_u o_dyn o_path o_run o_term o_mayer o_x00 o_lbx o_ubx o_lbu o_ubu o_lba o_uba o_lbe o_ube o_lbt0 o_ubt0 o_lbtf o_ubtf o_diff_u o_lbdu o_ubdu o_midu o_ducont]; auto.
  - apply repeat_app.
  - intros [|ph] f fa fb E Ea Eb xa xb ua ub t a b da db _ _ _ _ _ _ Da Db; [|destruct ph; discriminate E]. injection E as <-. injection Ea as <-. injection Eb as <-. injection Da as <-. injection Db as <-. reflexivity.
  - intros [|ph] f fa fb E Ea Eb xa xb ua ub t a b da db _ _ _ _ _ _ Da Db; [|destruct ph; discriminate E]. injection E as <-. injection Ea as <-. injection Eb as <-. injection Da as <-. injection Db as <-. cbn. rewrite map_app. reflexivity.
  - intros [|ph] f fa fb E Ea Eb xa xb ua ub t a b da db _ _ _ _ _ _ Da Db; [|destruct ph; discriminate E]. injection E as <-. injection Ea as <-. injection Eb as <-. injection Da as <-. injection Db as <-. do 2 f_equal. ring.
  - intros [|ph] f fa fb E Ea Eb xa xb ya yb tf t0 a b da db _ _ _ _ _ _ Da Db; [|destruct ph; discriminate E]. injection E as <-. injection Ea as <-. injection Eb as <-. injection Da as <-. injection Db as <-. reflexivity.
  - intros [|ph] f fa fb E Ea Eb xa xb ya yb tf t0 a b da db _ _ _ _ _ _ Da Db; [|destruct ph; discriminate E]. injection E as <-. injection Ea as <-. injection Eb as <-. injection Da as <-. injection Db as <-. do 2 f_equal. rewrite total_app. ring.
  - cbn. apply repeat_app.
  - split; intros [|i] Hi; try lia; cbn; apply repeat_app.
  - split; intros [|i] Hi; try lia; cbn; apply repeat_app.
  - split; intros [|i] Hi; try lia; reflexivity.
  - split; intros i Hi; lia.
  - intros ph t Hph. tauto.
  - intros ph t Hph. tauto.
Qed.
Lemma movers_times n c t : times_given (movers n c t t).
Proof. intros [|ph] Hph; [|cbn in Hph; lia]. split; eexists; intros s (A & B); cbn in A, B; apply Rle_antisym; eassumption. Qed.
(** one segment of degree one *)
Definition movers_mp (n : nat) (c lo hi : R) : mpo Rnum := Mpo (movers n c lo hi) 1 [1%nat] (demo_cf "LGL").
Lemma movers_in n c lo hi z : (1 <= n)%nat -> lo <= hi -> length z = nvars (movers_mp n c lo hi) -> input_ok (movers_mp n c lo hi) (fun _ => Some n) (fun _ => None) z [1].
Proof.
  intros Hn Hlh Hz. constructor; [|exact (movers_ok n c lo hi Hn Hlh)|exact (movers_scales n c lo hi)|cbn [movers_mp mp_ocp movers o_nph]; rewrite Hz; symmetry; apply Nat.mul_1_l|reflexivity].
  constructor; [apply demo_cf_ok; cbn; auto|reflexivity|cbn; lia|]. intros q [<-|[]]. lia.
Qed.
Lemma movers_cost n c lo hi rs w y : node_cost (movers_mp n c lo hi) rs w 0 y = c * y_tf y + total_of (vec n (y_x y 1)).
Proof.
  unfold node_cost, seg_cost, run_at, run_val, mayer_val. cbn [movers_mp mp_orders mp_ocp mp_cf movers o_mayer o_run nth_error].
  replace (Rsum _ _) with 0; [rewrite Rplus_0_r; reflexivity|].
  symmetry. apply Rsum_0. intros k Hk. apply Rmult_eq_0_compat_l. apply Rsum_0. intros j Hj. apply Rmult_0_r.
Qed.
(** nothing moves until time t *)
Definition rest (t : R) : utraj := Utraj (fun _ _ => 0) (fun _ _ => 0) 0 t (fun _ => 0).
Lemma total_zero n : total_of (vec n (fun _ => 0)) = 0.
Proof. unfold vec. generalize (seq 0 n). intros l. induction l as [|x l IH]; cbn; [reflexivity|rewrite IH; ring]. Qed.
Lemma total_pos_of l : (forall x, In x l -> 0 <= x) -> 0 <= total_of l.
Proof. induction l as [|x l IH]; intros H; cbn; [lra|]. pose proof (H x (or_introl eq_refl)). assert (0 <= total_of l) by (apply IH; intros; apply H; right; assumption). lra. Qed.
Lemma movers_rest n c lo hi t : (1 <= n)%nat -> lo <= t <= hi -> exists (z : list R) m, length z = nvars (movers_mp n c lo hi) /\ same_traj (movers_mp n c lo hi) (user_traj (movers_mp n c lo hi) z 0) (rest t) /\
  nlp_at (movers_mp n c lo hi) z [1] = Ok m /\ feasible m /\ n_f m = c * t.
Proof.
  intros Hn Ht. set (mp := movers_mp n c lo hi). exists (pack mp (fun _ => rest t)).
  assert (Lz : length (pack mp (fun _ => rest t)) = nvars mp) by (rewrite length_pack; apply Nat.mul_1_l).
  assert (HS : same_traj mp (user_traj mp (pack mp (fun _ => rest t)) 0) (rest t)) by (apply (pack_traj mp (fun _ => rest t) 0 (ok_shapes _ _ _ (movers_ok n c lo hi Hn ltac:(lra))) (movers_scales n c lo hi)); cbn; lia).
  assert (HS' : forall ph, (ph < 1)%nat -> same_traj mp (user_traj mp (pack mp (fun _ => rest t)) ph) ((fun _ => rest t) ph)) by (intros ph Hph; assert (ph = 0)%nat as -> by lia; exact HS).
  destruct (nlp_like mp _ _ _ [1] (fun _ => rest t) (movers_in n c lo hi _ Hn ltac:(lra) Lz) HS') as (rs & m & Er & En & _ & HF & HC).
  injection Er as <-. exists m. split; [exact Lz|]. split; [exact HS|]. split; [exact En|]. split.
  - apply HF. split; [|split].
    + intros [|ph] Hph; [|cbn in Hph; lia]. split; [|split; [|split; [|split]]].
      * intros i s Hi Hs. cbn in Hs. destruct i as [|i]; cbn; unfold bnd; cbn; rewrite !nth_repeat_in by exact Hs; [reflexivity|split; [apply Rle_refl|exact I]].
      * intros i s Hi Hs. cbn in Hs. cbn; unfold bnd; cbn; rewrite !nth_repeat_in by exact Hs. split; exact I.
      * split; cbn; apply Rle_refl.
      * split; cbn; apply Ht.
      * intros i Hi. cbn in Hi. lia.
    + intros [|ph] Hph; [|cbn in Hph; lia]. split; [|split; [|split; [|split; [|split]]]].
      * intros i k j s a Hoo Hs Hc. cbn in Hs. unfold dyn_val. cbn. change (is_derive (peval a) (nth j (nth k [[-1; 1]] []) 0) (seg_h (demo_cf "LGL") (width mp [1] 0) (rest t) k * nth s (vec n (fun _ => 0)) 0)).
        assert (X : nth s (vec n (fun _ => 0)) 0 = 0) by (unfold vec; apply (nth_map_seq (fun _ => 0) n s 0 Hs)). rewrite X, Rmult_0_r.
        destruct Hoo as (q & Eq & Hj & H & ->). pose proof (MeshR.nth_error_lt _ _ _ Eq) as Hk. cbn in Hk. assert (k = 0)%nat as -> by lia.
        pose proof (line_derive a _ _ (nth j [-1; 1] 0) (demo_line 1 0 _ a (le_n 1) Hc)) as X1. cbn [rest y_x] in X1. assert (X2 : (0 - 0) / 2 = 0) by lra. exact (is_derive_ext_val _ _ _ _ X2 X1).
      * intros i k j a H Ha. unfold path_val in Ha. cbn in Ha. apply in_map_iff in Ha. destruct Ha as (v & <- & Hv). unfold vec in Hv. apply in_map_iff in Hv. destruct Hv as (s & <- & _). cbn. lra.
      * intros H. cbn in H. discriminate H.
      * intros H. cbn in H. discriminate H.
      * intros H. cbn in H. discriminate H.
      * intros a Ha. cbn in Ha. destruct Ha.
    + intros H. cbn in H. lia.
  - rewrite HC. change (o_nph (mp_ocp mp)) with 1%nat. cbn [Rsum]. unfold mp. rewrite movers_cost. cbn [rest y_x y_tf]. rewrite total_zero. nred. ring.
Qed.
Lemma movers_above n c lo hi (z : list R) m : (1 <= n)%nat -> lo <= hi -> length z = nvars (movers_mp n c lo hi) -> nlp_at (movers_mp n c lo hi) z [1] = Ok m -> feasible m ->
  exists t, lo <= t <= hi /\ c * t <= n_f m.
Proof.
  intros Hn Hlh Lz En F. set (mp := movers_mp n c lo hi) in *. set (y := user_traj mp z 0).
  destruct (nlp_like mp _ _ z [1] (user_traj mp z) (movers_in n c lo hi z Hn Hlh Lz) (fun ph _ => same_refl _ _)) as (rs & m' & Er & En' & _ & HF & HC).
  rewrite <- (same_ok _ _ _ _ _ En En') in *. destruct (proj1 HF F) as (B & _). destruct (B 0%nat ltac:(cbn; lia)) as (X & _ & _ & (T1 & T2) & _). cbn in T1, T2.
  exists (y_tf y). split; [split; assumption|]. rewrite HC. change (o_nph (mp_ocp mp)) with 1%nat. cbn [Rsum]. unfold mp. rewrite movers_cost. fold y.
  assert (P : 0 <= total_of (vec n (y_x y 1))).
  { apply total_pos_of. intros v Hv. unfold vec in Hv. apply in_map_iff in Hv. destruct Hv as (s & <- & Hs). apply in_seq in Hs.
    destruct (X 1%nat s ltac:(cbn; lia) ltac:(cbn; lia)) as (A & _). unfold bnd in A. cbn in A. rewrite nth_repeat_in in A by lia. exact A. }
  clear - P. fold mp. fold y. lra.
Qed.
Lemma movers_best n c lo hi t : (1 <= n)%nat -> lo <= t <= hi -> (forall s, lo <= s <= hi -> c * t <= c * s) ->
  exists z : list R, length z = nvars (movers_mp n c lo hi) /\ same_traj (movers_mp n c lo hi) (user_traj (movers_mp n c lo hi) z 0) (rest t) /\ best (movers_mp n c lo hi) [1] z.
Proof.
  intros Hn Ht Hc. destruct (movers_rest n c lo hi t Hn Ht) as (z & m & Lz & HS & En & F & HC). exists z. split; [exact Lz|]. split; [exact HS|].
  exists m. split; [exact En|]. split; [exact F|]. intros z1 m1 L1 E1 F1. destruct (movers_above n c lo hi z1 m1 Hn ltac:(lra) (eq_trans L1 Lz) E1 F1) as (s & Hs & X).
  specialize (Hc s Hs). rewrite HC. clear - X Hc. nred. lra.
Qed.
Lemma rest_parts n m c d lo hi t (z za zb : list R) : let mp := movers_mp (n + m) (c + d) lo hi in
  same_traj mp (user_traj mp z 0) (rest t) -> same_traj (movers_mp n c lo hi) (user_traj (movers_mp n c lo hi) za 0) (rest t) -> same_traj (movers_mp m d lo hi) (user_traj (movers_mp m d lo hi) zb 0) (rest t) ->
  parts mp (movers n c lo hi) (movers m d lo hi) z za zb.
Proof.
  intros mp (P1 & P2 & P3 & P4 & _) (Q1 & Q2 & Q3 & Q4 & _) (S1 & S2 & S3 & S4 & _) [|ph] Hph; [|cbn in Hph; lia].
  change (with_ocp mp (movers n c lo hi)) with (movers_mp n c lo hi). change (with_ocp mp (movers m d lo hi)) with (movers_mp m d lo hi).
  set (y := user_traj mp z 0) in *. set (ya := user_traj (movers_mp n c lo hi) za 0) in *. set (yb := user_traj (movers_mp m d lo hi) zb 0) in *.
  cbn [mp movers_mp mp_orders mp_ocp movers o_nx o_nu o_na rest y_x y_u y_t0 y_tf] in *.
  split; (split; [|split; [|split; [|split]]]); cbn [movers_mp mp_orders mp_ocp movers o_nx o_nu o_na second y_x y_u y_t0 y_tf y_a].
  - intros i s Hi Hs. rewrite (Q1 i s Hi Hs). symmetry. apply P1; [exact Hi|lia].
  - intros i s Hi Hs. rewrite (Q2 i s Hi Hs). symmetry. apply P2; [exact Hi|lia].
  - rewrite Q3. symmetry. exact P3.
  - rewrite Q4. symmetry. exact P4.
  - intros i Hi. lia.
  - intros i s Hi Hs. rewrite (S1 i s Hi Hs). symmetry. apply P1; [exact Hi|lia].
  - intros i s Hi Hs. rewrite (S2 i s Hi Hs). symmetry. apply P2; [exact Hi|lia].
  - rewrite S3. symmetry. exact P3.
  - rewrite S4. symmetry. exact P4.
  - intros i Hi. lia.
Qed.
(** the first problem alone would rather end at time 1, both together at time 2 *)
Lemma movers_free : exists z za zb : list R, length z = nvars (movers_mp (1 + 1) (1 + -2) 1 2) /\ length za = nvars (movers_mp 1 1 1 2) /\ length zb = nvars (movers_mp 1 (-2) 1 2) /\
  parts (movers_mp (1 + 1) (1 + -2) 1 2) (movers 1 1 1 2) (movers 1 (-2) 1 2) z za zb /\ best (movers_mp (1 + 1) (1 + -2) 1 2) [1] z /\ ~ best (movers_mp 1 1 1 2) [1] za.
Proof.
  destruct (movers_best (1 + 1) (1 + -2) 1 2 2 ltac:(lia) ltac:(lra) ltac:(intros; lra)) as (z & Lz & HS & HB).
  destruct (movers_rest 1 1 1 2 2 ltac:(lia) ltac:(lra)) as (za & na & La & Sa & Ea & Fa & Ca). destruct (movers_rest 1 (-2) 1 2 2 ltac:(lia) ltac:(lra)) as (zb & nb & Lb & Sb & _).
  destruct (movers_rest 1 1 1 2 1 ltac:(lia) ltac:(lra)) as (za1 & na1 & La1 & _ & Ea1 & Fa1 & Ca1).
  exists z, za, zb. split; [exact Lz|]. split; [exact La|]. split; [exact Lb|]. split; [exact (rest_parts 1 1 1 (-2) 1 2 2 z za zb HS Sa Sb)|]. split; [exact HB|].
  intros (n & En & _ & B). rewrite <- (same_ok _ _ _ _ _ Ea En) in B. pose proof (B za1 na1 (eq_trans La1 (eq_sym La)) Ea1 Fa1) as X. rewrite Ca, Ca1 in X. clear - X. nred. lra.
Qed.
(** with the end time given *)
Lemma movers_given n m c d t : (1 <= n)%nat -> (1 <= m)%nat -> exists z za zb : list R, length z = nvars (movers_mp (n + m) (c + d) t t) /\ length za = nvars (movers_mp n c t t) /\ length zb = nvars (movers_mp m d t t) /\
  parts (movers_mp (n + m) (c + d) t t) (movers n c t t) (movers m d t t) z za zb /\ best (movers_mp (n + m) (c + d) t t) [1] z /\ best (movers_mp n c t t) [1] za /\ best (movers_mp m d t t) [1] zb.
Proof.
  intros Hn Hm. assert (X : forall c s, t <= s <= t -> c * t <= c * s) by (intros c' s Hs; replace s with t by lra; lra).
  destruct (movers_best (n + m) (c + d) t t t ltac:(lia) ltac:(lra) (X _)) as (z & Lz & HS & HB). destruct (movers_best n c t t t Hn ltac:(lra) (X _)) as (za & La & Sa & HBa). destruct (movers_best m d t t t Hm ltac:(lra) (X _)) as (zb & Lb & Sb & HBb).
  exists z, za, zb. repeat (split; [assumption|]). split; [exact (rest_parts n m c d t t t z za zb HS Sa Sb)|auto].
Qed.
