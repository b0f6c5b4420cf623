(** Two states whose sum, or sum of squares, the state equations keep (examples for C82). *)
From Coq Require Import Reals Lia Lra Bool Arith String.
From Coquelicot Require Import Coquelicot.
From Coq Require Import List.
From Verif Require Import Num PyList Mat Poly Roots Colloc Ocp Transcribe Spec SpecOcp SpecHadapt SpecExact SpecLaw NumR ListR PolyR CollocR CompR CollocThm MeshR BlockR DiscR NlpR OcpR NlpThm ScaleR CostR ConvexR TransR ExactR ExOcp ExNlp ExGlide ExTail LawR.
Import ListNotations.
Open Scope R_scope.

(** from (1, 0) at time 0 to time 2; everything but the state equations is left free *)
Definition pair (f : R -> R -> R -> R * R) : ocp Rnum :=
  Ocp (N := Rnum) 2 1 0 1
    [fun x u _ _ => let d := f (nth 0 x 0) (nth 1 x 0) (nth 0 u 0) in Ok [fst d; snd d]] [fun _ _ _ _ => Ok None] [fun _ _ _ _ _ => Ok (Some 0)]
    [fun _ _ _ _ => Ok (Some 0)] [fun _ _ _ _ _ => Ok None] []
    [1; 1] [1] [] 1 [[1; 0]] [[1; 0]] [[0]] [[0]] [[0]] [[2]] [[]]
    [[NInf; NInf]] [[PInf; PInf]] [[NInf]] [[PInf]] [[]] [[]]
    [[Fin 0]] [[Fin 0]] [[Fin 2]] [[Fin 2]] [] [] [false] [Fin (-15)] [Fin 15] [false] [false].
Lemma pair_ok f : ocp_ok (pair f) (fun _ => None) (fun _ => None).
Proof.
  constructor.
  { constructor; cbn; auto; try (apply shaped1; reflexivity).
    - split; [reflexivity|]. intros H. lia.
    - split; [reflexivity|]. intros H. lia.
    - intros [|i] [|[|j]] Hi Hj; try lia; cbn; auto; lra.
    - intros [|i] [|j] Hi Hj; try lia; cbn; auto; lra.
    - intros i j Hi Hj; lia.
    - intros [|i] [|j] Hi Hj; try lia; cbn; auto; lra.
    - intros [|i] [|j] Hi Hj; try lia; cbn; auto; lra.
    - intros i j Hi Hj; lia. }
  - cbn; lia.
  - intros ph g x u t a H _ _ _. one ph H. eexists; split; reflexivity.
  - intros ph g x u t a H _ _ _. one ph H. eexists; reflexivity.
  - intros ph g xf tf x0 t0 a H _ _ _. one ph H. eexists; reflexivity.
  - intros ph g x u t a H _ _ _. one ph H. reflexivity.
  - intros ph g xf tf x0 t0 a H _ _ _. one ph H. reflexivity.
  - reflexivity.
  - reflexivity.
  - reflexivity.
  - reflexivity.
  - reflexivity.
  - intros; cbn; lia.
  - intros i j [].
  - cbn. lia.
  - intros H. cbn in H. lia.
Qed.
Lemma pair_scales f : scales_pos (pair f).
Proof. constructor; cbn; [intros s [<-|[<-|[]]]; lra|intros s [<-|[]]; lra|intros s []|lra]. Qed.
Definition pair_mp f : mpo Rnum := Mpo (pair f) 2 (repeat 1%nat 2) (demo_cf "LGR").
Definition pair_p : list R := [1 / 2; 1 / 2].
Lemma pair_in f z : length z = nvars (pair_mp f) -> input_ok (pair_mp f) (fun _ => None) (fun _ => None) z pair_p.
Proof.
  intros Hz. constructor; [|exact (pair_ok f)|exact (pair_scales f)|cbn [pair_mp mp_ocp pair o_nph]; rewrite Hz; symmetry; apply Nat.mul_1_l|reflexivity].
  constructor; cbn [pair_mp mp_cf mp_nseg mp_orders]; [apply demo_cf_ok; cbn; auto|reflexivity|lia|]. intros p [<-|[<-|[]]]; lia.
Qed.
(** at rest on the first segment, one step of length 1 on the second *)
Definition jump (x v u : R) : utraj := Utraj (fun i s => match i, s with S (S _), O => x | S (S _), _ => v | _, O => 1 | _, _ => 0 end) (fun i _ => match i with S (S _) => u | _ => 0 end) 0 2 (fun _ => 0).
Lemma jump_point f x v u : f 1 0 0 = (0, 0) -> f x v u = (x - 1, v) -> exists z n, length z = nvars (pair_mp f) /\ nlp_at (pair_mp f) z pair_p = Ok n /\ feasible n /\
  same_traj (pair_mp f) (user_traj (pair_mp f) z 0) (jump x v u).
Proof.
  intros F0 F1. set (mp := pair_mp f). set (ys := fun _ : nat => jump x v u). set (z := pack mp ys).
  assert (Hz : length z = nvars mp) by (unfold z; rewrite length_pack; apply Nat.mul_1_l).
  assert (HS : forall ph, (ph < 1)%nat -> same_traj mp (user_traj mp z ph) (ys ph)).
  { intros ph Hph. apply (pack_traj mp ys ph (ok_shapes _ _ _ (pair_ok f)) (pair_scales f)). exact Hph. }
  destruct (nlp_like mp _ _ z pair_p ys (pair_in f z Hz) HS) as (rs & n & Er & En & _ & HF & _).
  assert (rs = [[-1; 1]; [-1; 1]]) as -> by (pose proof (eq_trans (eq_sym Er) (demo_roots 1 0 [1] true false [0] [0] 2)) as X; injection X as X; exact X).
  exists z, n. split; [exact Hz|]. split; [exact En|]. split; [|exact (HS 0%nat ltac:(lia))].
  apply HF. split; [|split].
  - intros [|ph] Hph; [|cbn in Hph; lia]. split; [|split; [|split; [|split]]].
    + intros i s Hi Hs. cbn in Hs. destruct i as [|i]; [destruct s as [|[|s]]; [reflexivity|reflexivity|lia]|]. cbn. destruct s as [|[|s]]; [| |lia]; split; exact I.
    + intros i [|c] Hi Hc; [|cbn in Hc; lia]. split; exact I.
    + split; cbn; lra.
    + split; cbn; lra.
    + intros i Hi. cbn in Hi. lia.
  - intros [|ph] Hph; [|cbn in Hph; lia]. quiet.
    intros i k j s c Ho Hs Hc. destruct Ho as (q & Eq & Hj & Hk & ->). pose proof (MeshR.nth_error_lt _ _ _ Eq) as Hk2. cbn in Hk2.
    assert (q = 1)%nat as -> by (destruct k as [|[|k]]; cbn in Eq; [injection Eq as <-; reflexivity|injection Eq as <-; reflexivity|lia]).
    pose proof (demo_line 2 k (fun i => y_x (ys 0%nat) i s) c ltac:(lia) Hc) as L. cbn beta in L.
    cbn [mp pair_mp mp_ocp pair o_nx] in Hs.
    match goal with |- is_derive _ _ ?v => replace v with ((y_x (ys 0%nat) (S k) s - y_x (ys 0%nat) k s) / 2); [eapply line_derive; exact L|] end.
    destruct k as [|[|k]]; [| |lia].
    + destruct j as [|[|j]]; [| |lia]; destruct s as [|[|s]]; try lia; cbn; nred; rewrite F0; cbn; unfold seg_h, width; cbn; field.
    + destruct j as [|[|j]]; [destruct Hk; lia| |lia]; destruct s as [|[|s]]; try lia; cbn; nred; rewrite F1; cbn; unfold seg_h, width; cbn; nred; field.
  - intros H. cbn in H. lia.
Qed.
(** from one state into the other: the sum is kept *)
Definition swap (_ _ u : R) : R * R := (u, - u).
Lemma swap_law : law eq (pair swap) 0 (fun _ => 1) 0 (fun _ _ => True).
Proof. intros f x u t a d Hf _ _ _ Ed _. cbn in Hf. injection Hf as <-. injection Ed as <-. cbn. nred. ring. Qed.
(** rotation at speed u: the sum of squares is kept *)
Definition turn (x v u : R) : R * R := (v * u, - (x * u)).
Definition squares (x : nat -> R) : R := x 0%nat * x 0%nat + x 1%nat * x 1%nat.
Lemma turn_point : exists z n, length z = nvars (pair_mp turn) /\ nlp_at (pair_mp turn) z pair_p = Ok n /\ feasible n /\
  squares (y_x (user_traj (pair_mp turn) z 0) 2) <> squares (y_x (user_traj (pair_mp turn) z 0) 0).
Proof.
  destruct (jump_point turn (1 / 2) (- (1 / 2)) 1) as (z & n & Hz & En & Hf & HS); [unfold turn; f_equal; ring|unfold turn; f_equal; field|].
  exists z, n. split; [exact Hz|]. split; [exact En|]. split; [exact Hf|]. destruct HS as (HX & _). unfold squares.
  rewrite !HX by (cbn; lia). cbn. lra.
Qed.
(** x' = u with 0 <= u <= 1, from 0 to 1; the time it takes is free *)
Definition dash : ocp Rnum :=
  Ocp (N := Rnum) 1 1 0 1
    [fun _ u _ _ => Ok [nth 0 u 0]] [fun _ _ _ _ => Ok None] [fun _ tf _ _ _ => Ok (Some tf)]
    [fun _ _ _ _ => Ok (Some 0)] [fun xf _ _ _ _ => Ok (Some [nth 0 xf 0 - 1])] []
    [1] [1] [] 1 [[0]] [[1]] [[0]] [[0]] [[0]] [[1]] [[]]
    [[NInf]] [[PInf]] [[Fin 0]] [[Fin 1]] [[]] [[]]
    [[Fin 0]] [[Fin 0]] [[Fin 0]] [[PInf]] [] [] [false] [Fin (-15)] [Fin 15] [true] [false].
Definition dash_nterm (ph : nat) : option nat := Some 1%nat.
Lemma dash_ok : ocp_ok dash (fun _ => None) dash_nterm.
Proof.
  constructor.
  { constructor; cbn; auto; try (apply shaped1; reflexivity).
    - split; [reflexivity|]. intros H. lia.
    - split; [reflexivity|]. intros H. lia.
    - intros [|i] [|j] Hi Hj; try lia; cbn; auto; lra.
    - intros [|i] [|j] Hi Hj; try lia; cbn; auto; lra.
    - intros i j Hi Hj; lia.
    - intros [|i] [|j] Hi Hj; try lia; cbn; auto; lra.
    - intros [|i] [|j] Hi Hj; try lia; cbn; auto; lra.
    - intros i j Hi Hj; lia. }
  - cbn; lia.
  - intros ph f x u t a H _ _ _. one ph H; eexists; split; reflexivity.
  - intros ph f x u t a H _ _ _. one ph H; eexists; reflexivity.
  - intros ph f xf tf x0 t0 a H _ _ _. one ph H; eexists; reflexivity.
  - intros ph f x u t a H _ _ _. one ph H; reflexivity.
  - intros ph f xf tf x0 t0 a H _ _ _. one ph H; cbn; eexists; split; reflexivity.
  - reflexivity.
  - reflexivity.
  - reflexivity.
  - reflexivity.
  - reflexivity.
  - intros; cbn; lia.
  - intros i j [].
  - cbn; lia.
  - cbn; intros H; lia.
Qed.
Lemma dash_scales : scales_pos dash.
Proof. constructor; cbn; [intros s [<-|[]]; lra|intros s [<-|[]]; lra|intros s []|lra]. Qed.
Definition dashing : ptraj := Ptraj (fun _ => [0; 1]) (fun _ => [1]) 0 1 (fun _ => 0).
Lemma dashing_solves : solves dash 0 dashing.
Proof.
  constructor; cbn [dashing p_t0 p_tf p_x p_u p_a].
  - lra.
  - intros t [|s] Ht Hs; [|cbn in Hs; lia]. apply (is_derive_ext (fun t => t * 1)); [intros x; cbn; ring|]. auto_derive; [exact Logic.I|]. cbn. ring.
  - intros t c _ [].
  - intros x [<-|[]]; cbn; nred; ring.
  - intros [|s] _ Hs; [|cbn in Hs; lia]; cbn; ring.
  - intros t [|s] Ht Hs; [|cbn in Hs; lia]. split; exact Logic.I.
  - intros t [|k] Ht Hk; [|cbn in Hk; lia]. cbn. split; cbn [above below]; nred; lra.
  - split; cbn; lra.
  - split; cbn; nred; try exact Logic.I; lra.
  - intros i Hi. cbn in Hi. lia.
Qed.
(** the speed is at most 1 *)
Lemma dash_law : law Rle dash 0 (fun _ => 1) 1 (fun _ u => nth 0 u 0 <= 1).
Proof. intros f x u t a d Hf _ _ _ Ed H. cbn in Hf. injection Hf as <-. injection Ed as <-. cbn. nred. lra. Qed.
Section Mesh.
Variables (cf : ccfg Rnum) (K : nat) (orders : list nat) (p : list R).
Hypothesis Hcf : cfg_ok cf.
Hypothesis HK : (1 <= K)%nat.
Hypothesis Hlen : length orders = K.
Hypothesis Hs : cf_scheme cf = "LGR"%string.
Hypothesis Hw : widths_ok K 1 p.
Hypothesis Hq : forall q, In q orders -> (2 <= q)%nat.
(** on no mesh does it take less than one unit of time, and on every mesh it can be done in one *)
Lemma dash_time : let mp : mpo Rnum := Mpo dash K orders cf in
  (exists (z : list R) n, length z = nvars mp /\ nlp_at mp z p = Ok n /\ feasible n /\ y_tf (user_traj mp z 0) = 1) /\
  forall (z : list R) n, length z = nvars mp -> nlp_at mp z p = Ok n -> feasible n -> 1 <= y_tf (user_traj mp z 0).
Proof.
  intros mp. assert (Hmp : mpo_ok mp) by (constructor; cbn; auto; intros q Hi; apply Hq in Hi; lia). split.
  - destruct (exact_thm mp (fun _ => None) dash_nterm p (fun _ => dashing) Hmp dash_ok dash_scales Hw) as (rs & _ & (z & Hz & Hsm) & HE).
    + intros [|[|ph]]; split; reflexivity.
    + intros ph Hph. cbn in Hph. assert (ph = 0)%nat as -> by lia. apply dashing_solves.
    + intros k i j H. destruct k; discriminate H.
    + intros ph _ q Hi. apply Hq in Hi. split; intros s _; cbn; lia.
    + destruct (HE z Hz Hsm) as (n & En & Hf & _). exists z, n. split; [change (o_nph (mp_ocp mp)) with 1%nat in Hz; nred; lia|]. split; [exact En|]. split; [exact Hf|].
      destruct (Hsm 0%nat ltac:(cbn; lia)) as (_ & E & _). rewrite E. reflexivity.
  - intros z n Hz En Hf. assert (Hz1 : length z = (o_nph (mp_ocp mp) * nvars mp)%nat) by (change (o_nph (mp_ocp mp)) with 1%nat; nred; lia).
    assert (lp : length p = (o_nph (mp_ocp mp) * mp_nseg mp)%nat) by (destruct Hw as [L _]; cbn; nred; lia).
    assert (Hin : input_ok mp (fun _ => None) dash_nterm z p) by (constructor; [exact Hmp|exact dash_ok|exact dash_scales|exact Hz1|exact lp]).
    destruct (less_thm mp _ _ z p Hin Hw (or_introl Hs) Hq) as (n' & En' & HL).
    assert (n' = n) as -> by (pose proof (eq_trans (eq_sym En') En) as X; injection X as X; exact X).
    destruct (nlp_at_ok mp Hmp _ _ dash_ok dash_scales z p Hz1 lp) as (rs' & n' & _ & En2 & _ & _ & _ & _ & _ & _ & Hb & Hsat & _).
    assert (n' = n) as -> by (pose proof (eq_trans (eq_sym En2) En) as X; injection X as X; exact X).
    pose proof (proj1 Hb (proj1 Hf) 0%nat ltac:(cbn; lia)) as (Bx & Bu & B0 & Bf & _). pose proof (proj1 (proj1 Hsat (proj2 Hf)) 0%nat ltac:(cbn; lia)) as (_ & _ & _ & _ & _ & Ht).
    set (y := user_traj mp z 0) in *.
    assert (Hn0 : (0 < total_nodes (mp_orders mp))%nat) by (unfold total_nodes; lia).
    assert (T0 : y_t0 y = 0) by (destruct B0 as [b1 b2]; cbn in b1, b2; apply Rle_antisym; [exact b2|exact b1]).
    assert (T1 : 0 <= y_tf y) by (destruct Bf as [b1 _]; cbn in b1; exact b1).
    assert (X0 : y_x y 0 0 = 0) by (exact (Bx 0%nat 0%nat Hn0 ltac:(cbn; lia))).
    assert (X1 : y_x y (total_nodes orders - 1) 0 - 1 = 0) by (apply Ht; left; reflexivity).
    assert (HD : nodes_in mp y (fun _ u => nth 0 u 0 <= 1)) by (intros i Hi; exact (proj2 (Bu i 0%nat Hi ltac:(cbn; lia)))).
    assert (Hyt : y_t0 y <= y_tf y) by (rewrite T0; exact T1).
    destruct (part_widths mp p Hmp Hw 0%nat ltac:(cbn; lia)) as [_ W2]. fold y in HL.
    pose proof (HL Hf 0%nat (fun _ => 1) 1 (fun _ u => nth 0 u 0 <= 1) ltac:(cbn; lia) dash_law Hyt HD 0%nat (length orders) ltac:(split; [lia|reflexivity])) as X.
    clear HL. change (user_traj mp z 0) with y in X. change (mp_orders mp) with orders in X, W2. assert (EK : offset orders (length orders) = (total_nodes orders - 1)%nat) by (unfold total_nodes; lia).
    change (amount 1 (fun _ => 1) (y_x y (offset orders (length orders))) <= amount 1 (fun _ => 1) (y_x y (offset orders 0)) + 1 * (seg_start (width mp p 0) y (length orders) - seg_start (width mp p 0) y 0)) in X.
    rewrite offset_0, EK in X. unfold amount, seg_start in X. rewrite W2 in X. cbn [Rsum] in X. clearbody y. nred. lra.
Qed.
End Mesh.
