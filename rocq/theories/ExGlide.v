(** Moving a cart with least effort, on any mesh (examples for C60). *)
From Coq Require Import Reals Lia Lra Psatz Bool Arith String.
From Coquelicot Require Import Coquelicot.
From Coq Require Import List.
From Verif Require Import Num PyList Mat Poly Roots Colloc Ocp Transcribe Spec SpecOcp SpecHadapt SpecBalance SpecExact SpecConvex NumR ListR PolyR CollocR CompR CollocThm JacobiR MeshR BlockR DiscR NlpR OcpR NlpThm GuessR CostR BalanceR ScaleR NlpMain ExactR WeightR ConvexR ExOcp ExNlp ExLander.
Import ListNotations.
Open Scope R_scope.

(** from rest at 0 to rest at 1 in one time unit, cost u^2, speed at most 2 *)
Definition glide : ocp Rnum :=
  Ocp (N := Rnum) 2 1 0 1
    [fun x u _ _ => Ok [nth 1 x 0; nth 0 u 0]] [fun x _ _ _ => Ok (Some [nth 1 x 0 * nth 1 x 0 - 4])] [fun _ _ _ _ _ => Ok (Some 0)]
    [fun _ u _ _ => Ok (Some (nth 0 u 0 * nth 0 u 0))] [fun xf _ _ _ _ => Ok (Some [nth 0 xf 0 - 1; nth 1 xf 0])] []
    [1; 1] [2] [] 1 [[0; 0]] [[1; 0]] [[0]] [[0]] [[0]] [[1]] [[]]
    [[Fin (-50); Fin (-50)]] [[Fin 50; Fin 50]] [[Fin (-50)]] [[Fin 50]] [[]] [[]]
    [[Fin 0]] [[Fin 0]] [[Fin 1]] [[Fin 1]] [] [] [false] [Fin (-15)] [Fin 15] [true] [false].
Definition glide_npath (ph : nat) : option nat := Some 1%nat.
Definition glide_nterm (ph : nat) : option nat := Some 2%nat.
Lemma glide_ok : ocp_ok glide glide_npath glide_nterm.
Proof.
  constructor.
  { constructor; cbn; auto; try (apply shaped1; reflexivity).
    - split; [reflexivity|]. intros H. lia.
    - split; [reflexivity|]. intros H. lia.
    - intros [|i] [|[|j]] Hi Hj; try lia; cbn; lra.
    - intros [|i] [|j] Hi Hj; try lia; cbn; lra.
    - intros i j Hi Hj; lia.
    - intros [|i] [|j] Hi Hj; try lia; cbn; lra.
    - intros [|i] [|j] Hi Hj; try lia; cbn; lra.
    - intros i j Hi Hj; lia. }
  - cbn; lia.
  - intros ph f x u t a H _ _ _. one ph H; eexists; split; reflexivity.
  - intros ph f x u t a H _ _ _. one ph H; eexists; reflexivity.
  - intros ph f xf tf x0 t0 a H _ _ _. one ph H; eexists; reflexivity.
  - intros ph f x u t a H _ _ _. one ph H; cbn; eexists; split; reflexivity.
  - intros ph f xf tf x0 t0 a H _ _ _. one ph H; cbn; eexists; split; reflexivity.
  - reflexivity.
  - reflexivity.
  - reflexivity.
  - reflexivity.
  - reflexivity.
  - intros; cbn; lia.
  - intros i j [].
  - cbn; lia.
  - cbn; intros H; lia.
Qed.
Lemma glide_scales : scales_pos glide.
Proof. constructor; cbn; [intros s [<-|[<-|[]]]; lra|intros s [<-|[]]; lra|intros s []|lra]. Qed.
Lemma glide_no_slopes : no_slopes glide.
Proof. intros [|[|ph]]; split; reflexivity. Qed.

Lemma mix_sq lam a b : 0 <= lam <= 1 -> mix lam a b * mix lam a b <= mix lam (a * a) (b * b).
Proof. intros H. unfold mix. assert (0 <= lam * (1 - lam) * ((a - b) * (a - b))) by (apply Rmult_le_pos; [nra|apply Rle_0_sqr]). nra. Qed.
Lemma glide_convex ph : (ph < 1)%nat -> convex_phase glide ph.
Proof.
  intros Hph. assert (ph = 0)%nat as -> by lia. constructor.
  - intros f lam x x' u u' t a a' d d' Hf Hl Lx Lx' Lu Lu' _ _ E E'. cbn in Hf. injection Hf as <-. injection E as <-. injection E' as <-. cbn in Lx, Lx', Lu, Lu'.
    rewrite !nth_mixl by (nred; lia). reflexivity.
  - intros f lam x x' u u' t a a' c c' m Hf Hl Lx Lx' Lu Lu' _ _ E E' Em i. cbn in Hf. injection Hf as <-. injection E as <-. injection E' as <-. injection Em as <-. cbn in Lx, Lx', Lu, Lu'.
    rewrite !nth_mixl by (nred; lia). pose proof (mix_sq lam (nth 1 x 0) (nth 1 x' 0) Hl). destruct i as [|[|i]]; cbn; nred; unfold mix in *; nred; lra.
  - intros f lam x x' u u' t a a' l l' m Hf Hl Lx Lx' Lu Lu' _ _ E E' Em. cbn in Hf. injection Hf as <-. injection E as <-. injection E' as <-. injection Em as <-. cbn in Lx, Lx', Lu, Lu'.
    rewrite !nth_mixl by (nred; lia). apply mix_sq. exact Hl.
  - intros f lam xf xf' tf x0 x0' t0 a a' c c' Hf Hl Lx Lx' Ly Ly' _ _ E E'. cbn in Hf. injection Hf as <-. injection E as <-. injection E' as <-. cbn in Lx, Lx', Ly, Ly'.
    rewrite !nth_mixl by (nred; lia). cbn. repeat f_equal. unfold mix. match goal with |- @eq _ ?a ?b => change (@eq R a b) end; ring.
  - intros f lam xf xf' tf x0 x0' t0 a a' l l' m Hf Hl Lx Lx' Ly Ly' _ _ E E' Em. cbn in Hf. injection Hf as <-. injection E as <-. injection E' as <-. injection Em as <-. unfold mix. lra.
Qed.
Lemma glide_fixed ph : (ph < 1)%nat -> fixed_times glide ph.
Proof. intros Hph. assert (ph = 0)%nat as -> by lia. exists 0, 1. repeat split; cbn; auto; lra. Qed.

(** two ways to get there *)
Definition gliding (c : R) : ptraj :=
  Ptraj (fun s => match s with O => [0; 0; 3 + c; - 2 - 2 * c; c] | _ => [0; 6 + 2 * c; - 6 - 6 * c; 4 * c] end)
        (fun _ => [6 + 2 * c; - 12 - 12 * c; 12 * c]) 0 1 (fun _ => 0).
Lemma unit_mult a b : 0 <= a <= 1 -> 0 <= b <= 1 -> 0 <= a * b <= 1.
Proof. intros A B. split; [apply Rmult_le_pos; lra|]. apply Rle_trans with (1 * 1); [apply Rmult_le_compat; lra|lra]. Qed.
Lemma unit_powers c t : 0 <= c <= 1 -> 0 <= t <= 1 ->
  0 <= t * t <= 1 /\ 0 <= t * (t * t) <= 1 /\ 0 <= t * (t * (t * t)) <= 1 /\ 0 <= c * t <= 1 /\ 0 <= c * (t * t) <= 1 /\ 0 <= c * (t * (t * t)) <= 1 /\ 0 <= c * (t * (t * (t * t))) <= 1.
Proof. intros Hc Ht. repeat (split || apply conj); repeat (apply unit_mult; auto); repeat apply unit_mult; auto. Qed.
Lemma gliding_solves c : 0 <= c <= 1 -> solves glide 0 (gliding c).
Proof.
  intros Hc. constructor; cbn [gliding p_t0 p_tf p_x p_u p_a].
  - lra.
  - intros t [|[|s]] Ht Hs; [| |cbn in Hs; lia].
    + apply (is_derive_ext (fun t => (3 + c) * (t * t) - (2 + 2 * c) * (t * t * t) + c * (t * t * t * t))); [intros x; cbn; ring|].
      auto_derive; [exact I|]. cbn. ring.
    + apply (is_derive_ext (fun t => (6 + 2 * c) * t - (6 + 6 * c) * (t * t) + 4 * c * (t * t * t))); [intros x; cbn; ring|].
      auto_derive; [exact I|]. cbn. ring.
  - intros t x Ht [<-|[]]. set (v := t * (1 - t) * (6 + 2 * c - 4 * c * t)).
    assert (A : 0 <= t * (1 - t) <= 1 / 4) by (split; [apply Rmult_le_pos; lra|pose proof (Rle_0_sqr (t - 1 / 2)); unfold Rsqr in *; lra]).
    assert (D : 0 <= 6 + 2 * c - 4 * c * t <= 8) by (assert (0 <= c * t) by (apply Rmult_le_pos; lra); assert (0 <= c * (1 - t)) by (apply Rmult_le_pos; lra); lra).
    assert (E : 0 <= v <= 2) by (unfold v; split; [apply Rmult_le_pos; lra|apply Rle_trans with (1 / 4 * 8); [apply Rmult_le_compat; lra|lra]]).
    apply Rle_trans with (v * v - 4); [right; unfold v; cbn; nred; ring|nra].
  - intros x [<-|[<-|[]]]; cbn; nred; ring.
  - intros [|[|s]] _ Hs; [| |cbn in Hs; lia]; cbn; ring.
  - intros t s Ht Hs. destruct (unit_powers c t Hc Ht) as (A & B & C & D & E & F & G). destruct s as [|[|s]]; [| |cbn in Hs; lia]; cbn; split; cbn [above below]; nred; lra.
  - intros t k Ht Hk. destruct (unit_powers c t Hc Ht) as (A & B & C & D & E & F & G). destruct k as [|k]; [|cbn in Hk; lia]. cbn. split; cbn [above below]; nred; lra.
  - split; cbn; lra.
  - split; cbn; lra.
  - intros i Hi. cbn in Hi. lia.
Qed.

Section Mesh.
Variables (cf : ccfg Rnum) (K : nat) (orders : list nat) (p : list R).
Let mp : mpo Rnum := Mpo glide K orders cf.
Hypothesis Hcf : cfg_ok cf.
Hypothesis HK : (1 <= K)%nat.
Hypothesis Hlen : length orders = K.
Hypothesis Hpos : forall q, In q orders -> (1 <= q)%nat.
Hypothesis Hw : widths_ok K 1 p.
Lemma glide_mpo : mpo_ok mp.
Proof. constructor; cbn; auto. Qed.
Lemma glide_local z n eps : length z = nvars mp -> nlp_at mp z p = Ok n -> feasible n -> 0 < eps ->
  (forall (z1 : list R) n1, close eps z z1 -> nlp_at mp z1 p = Ok n1 -> feasible n1 -> n_f n <= n_f n1) ->
  forall (z' : list R) n', length z' = nvars mp -> nlp_at mp z' p = Ok n' -> feasible n' -> n_f n <= n_f n'.
Proof.
  intros Hz En Hf He Hloc z' n' Hz'. assert (E1 : forall m, (1 * m = m)%nat) by lia.
  refine (local_global mp glide_npath glide_nterm p glide_mpo glide_ok glide_scales Hw glide_convex glide_fixed z n eps _ En Hf He Hloc z' n' _);
  (change (o_nph (mp_ocp mp)) with 1%nat; nred; lia).
Qed.
Lemma glide_point c : 0 <= c <= 1 -> (forall q, In q orders -> (4 <= q)%nat) -> exists rs z n, mapM (c_roots cf) orders = Ok rs /\ length z = nvars mp /\ samples mp rs (width mp p 0) (gliding c) (user_traj mp z 0) /\ nlp_at mp z p = Ok n /\ feasible n /\
  (cf_scheme cf = "LGR"%string -> n_f n = 12 + 4 / 5 * (c * c)).
Proof.
  intros Hc Hq.
  destruct (exact_thm mp glide_npath glide_nterm p (fun _ => gliding c) glide_mpo glide_ok glide_scales Hw glide_no_slopes) as (rs & Er & (z & Hz & Hsm) & HE).
  - intros ph Hph. cbn in Hph. assert (ph = 0)%nat as -> by lia. apply gliding_solves. exact Hc.
  - intros k i j H. destruct k; discriminate H.
  - intros ph _ q Hi. apply Hq in Hi. split; [intros [|[|s]] H; cbn in *; lia|intros k _; cbn; lia].
  - destruct (HE z Hz Hsm) as (n & En & Hf & HC). exists rs, z, n. split; [exact Er|]. split; [change (o_nph (mp_ocp mp)) with 1%nat in Hz; nred; lia|].
    split; [apply Hsm; cbn; lia|]. split; [exact En|]. split; [exact Hf|]. intros Hs.
    nred. rewrite (HC (fun _ => @pmul Rnum [6 + 2 * c; - 12 - 12 * c; 12 * c] [6 + 2 * c; - 12 - 12 * c; 12 * c])).
    + cbn [mp mp_ocp glide o_nph Rsum]. unfold exact_cost. rewrite RInt_peval. cbn. field.
    + intros ph Hph t _. cbn in Hph. assert (ph = 0)%nat as -> by lia. cbn. nred. ring.
    + left. split; [exact Hs|]. intros ph q _ Hi. apply Hq in Hi. cbn. lia.
Qed.
End Mesh.

(** ** without fixed end times the line between two feasible points may leave the feasible set *)
Definition sprint : ocp Rnum :=
  Ocp (N := Rnum) 1 1 0 1
    [fun _ u _ _ => Ok [nth 0 u 0]] [fun _ _ _ _ => Ok None] [fun _ _ _ _ _ => Ok (Some 0)]
    [fun _ u _ _ => Ok (Some (nth 0 u 0 * nth 0 u 0))] [fun xf _ _ _ _ => Ok (Some [nth 0 xf 0 - 1])] []
    [1] [1] [] 1 [[0]] [[1]] [[0]] [[0]] [[0]] [[1]] [[]]
    [[Fin 0]] [[Fin 1]] [[Fin 0]] [[Fin 1]] [[]] [[]]
    [[Fin 0]] [[Fin 0]] [[Fin 1]] [[Fin 2]] [] [] [false] [Fin (-15)] [Fin 15] [true] [false].
Definition sprint_nterm (ph : nat) : option nat := Some 1%nat.
Lemma sprint_ok : ocp_ok sprint (fun _ => None) sprint_nterm.
Proof.
  constructor.
  { constructor; cbn; auto; try (apply shaped1; reflexivity).
    - split; [reflexivity|]. intros H. lia.
    - split; [reflexivity|]. intros H. lia.
    - intros [|i] [|j] Hi Hj; try lia; cbn; lra.
    - intros [|i] [|j] Hi Hj; try lia; cbn; lra.
    - intros i j Hi Hj; lia.
    - intros [|i] [|j] Hi Hj; try lia; cbn; lra.
    - intros [|i] [|j] Hi Hj; try lia; cbn; lra.
    - intros i j Hi Hj; lia. }
  - cbn; lia.
  - intros ph f x u t a H _ _ _. one ph H; eexists; split; reflexivity.
  - intros ph f x u t a H _ _ _. one ph H; eexists; reflexivity.
  - intros ph f xf tf x0 t0 a H _ _ _. one ph H; eexists; reflexivity.
  - intros ph f x u t a H _ _ _. one ph H; reflexivity.
  - intros ph f xf tf x0 t0 a H _ _ _. one ph H; cbn; eexists; split; reflexivity.
  - reflexivity.
  - reflexivity.
  - reflexivity.
  - reflexivity.
  - reflexivity.
  - intros; cbn; lia.
  - intros i j [].
  - cbn; lia.
  - cbn; intros H; lia.
Qed.
Lemma sprint_scales : scales_pos sprint.
Proof. constructor; cbn; [intros s [<-|[]]; lra|intros s [<-|[]]; lra|intros s []|lra]. Qed.
Lemma sprint_convex ph : (ph < 1)%nat -> convex_phase sprint ph.
Proof.
  intros Hph. assert (ph = 0)%nat as -> by lia. constructor.
  - intros f lam x x' u u' t a a' d d' Hf Hl Lx Lx' Lu Lu' _ _ E E'. cbn in Hf. injection Hf as <-. injection E as <-. injection E' as <-. cbn in Lx, Lx', Lu, Lu'.
    rewrite !nth_mixl by (nred; lia). reflexivity.
  - intros f lam x x' u u' t a a' c c' m Hf Hl Lx Lx' Lu Lu' _ _ E. cbn in Hf. injection Hf as <-. discriminate E.
  - intros f lam x x' u u' t a a' l l' m Hf Hl Lx Lx' Lu Lu' _ _ E E' Em. cbn in Hf. injection Hf as <-. injection E as <-. injection E' as <-. injection Em as <-. cbn in Lx, Lx', Lu, Lu'.
    rewrite !nth_mixl by (nred; lia). apply mix_sq. exact Hl.
  - intros f lam xf xf' tf x0 x0' t0 a a' c c' Hf Hl Lx Lx' Ly Ly' _ _ E E'. cbn in Hf. injection Hf as <-. injection E as <-. injection E' as <-. cbn in Lx, Lx', Ly, Ly'.
    rewrite !nth_mixl by (nred; lia). cbn. repeat f_equal. unfold mix. match goal with |- @eq _ ?a ?b => change (@eq R a b) end; ring.
  - intros f lam xf xf' tf x0 x0' t0 a a' l l' m Hf Hl Lx Lx' Ly Ly' _ _ E E' Em. cbn in Hf. injection Hf as <-. injection E as <-. injection E' as <-. injection Em as <-. unfold mix. lra.
Qed.
Definition sprinting (v : R) : ptraj := Ptraj (fun _ => [0; v]) (fun _ => [v]) 0 (1 / v) (fun _ => 0).
Lemma sprinting_solves v : 1 / 2 <= v <= 1 -> solves sprint 0 (sprinting v).
Proof.
  intros Hv. assert (I : 1 <= 1 / v <= 2).
  { split; [apply Rmult_le_reg_r with v; [lra|]; unfold Rdiv; rewrite Rmult_assoc, Rinv_l by lra; lra|]. apply Rmult_le_reg_r with v; [lra|]; unfold Rdiv; rewrite Rmult_assoc, Rinv_l by lra; lra. }
  assert (J : forall t, 0 <= t <= 1 / v -> 0 <= t * v <= 1).
  { intros t Ht. split; [apply Rmult_le_pos; lra|]. apply Rle_trans with (1 / v * v); [apply Rmult_le_compat_r; lra|]. right. field. lra. }
  constructor; cbn [sprinting p_t0 p_tf p_x p_u p_a].
  - lra.
  - intros t [|s] Ht Hs; [|cbn in Hs; lia]. apply (is_derive_ext (fun t => t * v)); [intros x; cbn; ring|]. auto_derive; [exact Logic.I|]. cbn. ring.
  - intros t c _ [].
  - intros x [<-|[]]; cbn; nred; field; lra.
  - intros [|s] _ Hs; [|cbn in Hs; lia]; cbn; ring.
  - intros t [|s] Ht Hs; [|cbn in Hs; lia]. specialize (J t Ht). cbn. split; cbn [above below]; nred; lra.
  - intros t [|k] Ht Hk; [|cbn in Hk; lia]. cbn. split; cbn [above below]; nred; lra.
  - split; cbn; lra.
  - split; cbn; nred; lra.
  - intros i Hi. cbn in Hi. lia.
Qed.
Definition sprint_mp : mpo Rnum := Mpo sprint 1 [1]%nat (demo_cf "LGR").
Lemma sprint_mpo : mpo_ok sprint_mp.
Proof. constructor; cbn [sprint_mp mp_cf mp_nseg mp_orders]; [apply demo_cf_ok; cbn; auto|reflexivity|lia|]. intros q [<-|[]]. lia. Qed.
Lemma sprint_widths : widths_ok 1 1 [1].
Proof. split; [reflexivity|]. intros ph Hph. assert (ph = 0)%nat as -> by lia. split; [reflexivity|]. split; [intros x [<-|[]]; lra|cbn; lra]. Qed.
Lemma sprint_point v : 1 / 2 <= v <= 1 -> exists (z : list R) n, length z = nvars sprint_mp /\ nlp_at sprint_mp z [1] = Ok n /\ feasible n /\
  let y := user_traj sprint_mp z 0 in y_t0 y = 0 /\ y_tf y = 1 / v /\ y_x y 0 0 = 0 /\ y_x y 1 0 = 1 /\ y_u y 1 0 = v.
Proof.
  intros Hv. destruct (exact_thm sprint_mp (fun _ => None) sprint_nterm [1] (fun _ => sprinting v) sprint_mpo sprint_ok sprint_scales sprint_widths) as (rs & Er & (z & Hz & Hsm) & HE).
  - intros [|[|ph]]; split; reflexivity.
  - intros ph Hph. cbn in Hph. assert (ph = 0)%nat as -> by lia. apply sprinting_solves. exact Hv.
  - intros k i j H. destruct k; discriminate H.
  - intros ph _ q [<-|[]]. split; intros s _; cbn; lia.
  - destruct (HE z Hz Hsm) as (n & En & Hf & _). exists z, n. split; [exact Hz|]. split; [exact En|]. split; [exact Hf|]. intros y.
    assert (Er' : rs = [[-1; 1]]) by (pose proof (eq_trans (eq_sym Er) (eq_refl (Ok [[-1; 1]]))) as X; injection X as X; exact X).
    destruct (Hsm 0%nat ltac:(cbn; lia)) as (A & B & _ & D). fold y in A, B, D. split; [exact A|]. split; [exact B|].
    destruct (D 0%nat 0%nat 0%nat) as [D0 _]; [exists 1%nat; cbn; auto|]. destruct (D 1%nat 0%nat 1%nat) as [D1 D2]; [exists 1%nat; cbn; auto|].
    specialize (D0 0%nat ltac:(cbn; lia)). specialize (D1 0%nat ltac:(cbn; lia)). specialize (D2 0%nat ltac:(cbn; lia)). rewrite Er' in *. unfold node_time in *. rewrite A, B in *.
    split; [refine (eq_trans D0 _); cbn; match goal with |- @eq _ ?a ?b => change (@eq R a b) end; nred; field; lra|]. split; [refine (eq_trans D1 _); cbn; nred; field; lra|]. refine (eq_trans D2 _). cbn. nred. ring.
Qed.
Lemma sprint_bent : exists mp npath nterm p (z z' : list R) n n' m,
  mpo_ok mp /\ ocp_ok (mp_ocp mp) npath nterm /\ scales_pos (mp_ocp mp) /\ widths_ok (mp_nseg mp) (o_nph (mp_ocp mp)) p /\
  (forall ph, (ph < o_nph (mp_ocp mp))%nat -> convex_phase (mp_ocp mp) ph) /\
  length z = (o_nph (mp_ocp mp) * nvars mp)%nat /\ length z' = (o_nph (mp_ocp mp) * nvars mp)%nat /\
  nlp_at mp z p = Ok n /\ nlp_at mp z' p = Ok n' /\ nlp_at mp (mixl (1 / 2) z z') p = Ok m /\ feasible n /\ feasible n' /\ ~ feasible m.
Proof.
  destruct (sprint_point 1 ltac:(lra)) as (z & n & Hz & En & Hf & A1 & A2 & A3 & A4 & A5). destruct (sprint_point (1 / 2) ltac:(lra)) as (z' & n' & Hz' & En' & Hf' & B1 & B2 & B3 & B4 & B5).
  assert (Hzz : length z = length z') by (exact (eq_trans Hz (eq_sym Hz'))).
  assert (Hzm : length (mixl (1 / 2) z z') = (o_nph (mp_ocp sprint_mp) * nvars sprint_mp)%nat) by (rewrite (length_mixl _ z z' Hzz); exact Hz).
  destruct (nlp_at_ok sprint_mp sprint_mpo _ _ sprint_ok sprint_scales (mixl (1 / 2) z z') [1] Hzm eq_refl) as (rs & m & Er & Em & _ & _ & _ & _ & _ & _ & _ & Hsat & _).
  exists sprint_mp, (fun _ => None), sprint_nterm, [1], z, z', n, n', m. split; [exact sprint_mpo|]. split; [exact sprint_ok|]. split; [exact sprint_scales|]. split; [exact sprint_widths|].
  split; [exact sprint_convex|]. split; [exact Hz|]. split; [exact Hz'|]. split; [exact En|]. split; [exact En'|]. split; [exact Em|]. split; [exact Hf|]. split; [exact Hf'|].
  intros [_ F]. apply Hsat in F. destruct F as [F _]. destruct (F 0%nat ltac:(cbn; lia)) as (D & _). clear F Hsat.
  assert (Er' : rs = [[-1; 1]]) by (pose proof (eq_trans (eq_sym Er) (eq_refl (Ok [[-1; 1]]))) as X; injection X as X; exact X).
  set (y := user_traj sprint_mp (mixl (1 / 2) z z') 0) in *.
  assert (Y0 : y_x y 0 0 = 0) by (transitivity (mix (1 / 2) (y_x (user_traj sprint_mp z 0) 0 0) (y_x (user_traj sprint_mp z' 0) 0 0)); [unfold y, user_traj; cbn [y_x]; rewrite (nth_mixl _ z z' _ Hzz); apply mix_div|rewrite A3, B3; unfold mix; lra]).
  assert (Y1 : y_x y 1 0 = 1) by (transitivity (mix (1 / 2) (y_x (user_traj sprint_mp z 0) 1 0) (y_x (user_traj sprint_mp z' 0) 1 0)); [unfold y, user_traj; cbn [y_x]; rewrite (nth_mixl _ z z' _ Hzz); apply mix_div|rewrite A4, B4; unfold mix; lra]).
  assert (U1 : y_u y 1 0 = 3 / 4) by (transitivity (mix (1 / 2) (y_u (user_traj sprint_mp z 0) 1 0) (y_u (user_traj sprint_mp z' 0) 1 0)); [unfold y, user_traj; cbn [y_u]; rewrite (nth_mixl _ z z' _ Hzz); apply mix_div|rewrite A5, B5; unfold mix; lra]).
  assert (T0 : y_t0 y = 0) by (transitivity (mix (1 / 2) (y_t0 (user_traj sprint_mp z 0)) (y_t0 (user_traj sprint_mp z' 0))); [unfold y, user_traj; cbn [y_t0]; rewrite (nth_mixl _ z z' _ Hzz); apply mix_div|rewrite A1, B1; unfold mix; lra]).
  assert (T1 : y_tf y = 3 / 2) by (transitivity (mix (1 / 2) (y_tf (user_traj sprint_mp z 0)) (y_tf (user_traj sprint_mp z' 0))); [unfold y, user_traj; cbn [y_tf]; rewrite (nth_mixl _ z z' _ Hzz); apply mix_div|rewrite A2, B2; unfold mix; field]).
  specialize (D 1%nat 0%nat 1%nat 0%nat [1 / 2; 1 / 2]). rewrite Er' in D. assert (D' := D ltac:(exists 1%nat; cbn; auto) ltac:(cbn; lia)). clear D.
  assert (HI : seg_interp (mp_orders sprint_mp) 0 (nth 0 [[-1; 1]] []) (fun i => y_x y i 0) [1 / 2; 1 / 2]).
  { split; [cbn; lia|]. intros [|[|k]] Hk; [| |cbn in Hk; lia].
    - refine (eq_trans _ (eq_sym Y0)). cbn. nred. field.
    - refine (eq_trans _ (eq_sym Y1)). cbn. nred. field. }
  specialize (D' HI). apply derive_iff in D'.
  assert (E : Derive (peval [1 / 2; 1 / 2]) 1 = 1 / 2).
  { apply is_derive_unique. apply (is_derive_ext (fun t => 1 / 2 + t * (1 / 2))); [intros x; cbn; ring|]. auto_derive; [exact I|]. lra. }
  cbn [nth] in D'. rewrite E in D'. unfold seg_h in D'. rewrite T0, T1 in D'.
  assert (E1 : nth 0 (dyn_val (mp_ocp sprint_mp) 0 y 1 (seg_time (mp_cf sprint_mp) (width sprint_mp [1] 0) y 0 1)) 0 = 3 / 4) by (exact U1).
  nred. rewrite E1 in D'. unfold width in D'. cbn in D'. lra.
Qed.
