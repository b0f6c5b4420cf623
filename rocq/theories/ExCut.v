(** Carts whose trip is cut in two phases (examples for C68). *)
From Coq Require Import Reals Lia Lra Psatz Bool Arith String.
From Coquelicot Require Import Coquelicot.
From Coq Require Import List.
From Verif Require Import Num PyList Mat Poly Roots Colloc Ocp Transcribe Spec SpecOcp SpecHadapt SpecExact SpecTrans SpecCut NumR ListR PolyR MeshR DiscR NlpR NlpThm ScaleR ExactR ConvexR TransR CutR ExOcp ExGlide.
Import ListNotations.
Open Scope R_scope.

(** [glide] in two phases; the first ends between 1/4 and 3/4 *)
Definition glide2 : ocp Rnum :=
  let dyn := fun x u (_ : R) (_ : option (list R)) => Ok [nth 1 x 0; nth 0 u 0] in
  let path := fun x (_ : list R) (_ : R) (_ : option (list R)) => Ok (Some [nth 1 x 0 * nth 1 x 0 - 4]) in
  let run := fun (_ : list R) u (_ : R) (_ : option (list R)) => Ok (Some (nth 0 u 0 * nth 0 u 0)) in
  Ocp (N := Rnum) 2 1 0 2
    [dyn; dyn] [path; path] [fun _ _ _ _ _ => Ok (Some 0); fun _ _ _ _ _ => Ok (Some 0)] [run; run]
    [fun _ _ _ _ _ => Ok None; fun xf _ _ _ _ => Ok (Some [nth 0 xf 0 - 1; nth 1 xf 0])] [(0, 1)]%nat
    [1; 3] [2] [] 5 [[0; 0]; [1; 0]] [[1; 0]; [1; 0]] [[0]; [0]] [[0]; [0]] [[0]; [1]] [[1]; [1]] [[]; []]
    [[Fin (-50); Fin (-50)]; [Fin (-50); Fin (-50)]] [[Fin 50; Fin 50]; [Fin 50; Fin 50]] [[Fin (-50)]; [Fin (-50)]] [[Fin 50]; [Fin 50]] [[]; []] [[]; []]
    [[Fin 0]; [NInf]] [[Fin 0]; [PInf]] [[Fin (1 / 4)]; [Fin 1]] [[Fin (3 / 4)]; [Fin 1]] [[Fin 0; Fin 0]] [[Fin 0; Fin 0]] [false; false] [Fin (-15); Fin (-15)] [Fin 15; Fin 15] [true; true] [false; false].
Definition glide2_nterm (ph : nat) : option nat := match ph with O => None | _ => Some 2%nat end.
Lemma glide2_ok : ocp_ok glide2 glide_npath glide2_nterm.
Proof.
  constructor.
  { constructor; cbn; auto; try (apply shaped2; reflexivity).
    - split; [reflexivity|]. intros _. split; [reflexivity|]. intros r [<-|[]]; reflexivity.
    - split; [reflexivity|]. intros _. split; [reflexivity|]. intros r [<-|[]]; reflexivity.
    - intros [|[|i]] [|[|j]] Hi Hj; try lia; cbn; lra.
    - intros [|[|i]] [|j] Hi Hj; try lia; cbn; lra.
    - intros i j Hi Hj; lia.
    - intros [|[|i]] [|j] Hi Hj; try lia; cbn; try lra; exact I.
    - intros [|[|i]] [|j] Hi Hj; try lia; cbn; lra.
    - intros [|i] [|[|j]] Hi Hj; try lia; cbn; lra. }
  - cbn; lia.
  - intros ph f x u t a H _ _ _. two ph H; eexists; split; reflexivity.
  - intros ph f x u t a H _ _ _. two ph H; eexists; reflexivity.
  - intros ph f xf tf x0 t0 a H _ _ _. two ph H; eexists; reflexivity.
  - intros ph f x u t a H _ _ _. two ph H; cbn; eexists; split; reflexivity.
  - intros ph f xf tf x0 t0 a H _ _ _. two ph H; cbn; [reflexivity|eexists; split; reflexivity].
  - reflexivity.
  - reflexivity.
  - reflexivity.
  - reflexivity.
  - reflexivity.
  - intros; cbn; lia.
  - intros i j [H|[]]. injection H as <- <-. cbn. lia.
  - cbn. lia.
  - intros _ H. discriminate H.
Qed.
Lemma glide2_scales : scales_pos glide2.
Proof. constructor; cbn; [intros s [<-|[<-|[]]]; lra|intros s [<-|[]]; lra|intros s []|lra]. Qed.
Ltac both e He := destruct e as [|[|e]]; [| |lia].
Lemma glide2_cut : cut_phase glide glide2.
Proof.
  constructor; try reflexivity; try (intros e He; both e He; repeat split; reflexivity); try (repeat split; reflexivity).
  - intros f xf tf x0 t0 a H. injection H as <-. reflexivity.
  - intros f xf tf x0 t0 a H. injection H as <-. reflexivity.
  - intros f f2 xf tf x0 t0 x0' t0' a H H2. injection H as <-. injection H2 as <-. reflexivity.
  - intros f f2 xf tf x0 t0 x0' t0' a H H2. injection H as <-. injection H2 as <-. reflexivity.
  - intros [|[|s]] Hs; try (split; reflexivity). cbn in Hs. lia.
  - split; [reflexivity|]. intros e He; both e He; reflexivity.
Qed.
(** the trip cut at time [c] *)
Definition trip (c : R) (ph : nat) : ptraj :=
  Ptraj (fun s => match s with O => [0; 0; 3; - 2] | _ => [0; 6; - 6] end) (fun _ => [6; - 12]) (match ph with O => 0 | _ => c end) (match ph with O => c | _ => 1 end) (fun _ => 0).
Lemma trip_solves c ph : 1 / 4 <= c <= 3 / 4 -> (ph < 2)%nat -> solves glide2 ph (trip c ph).
Proof.
  intros Hc Hph. assert (P : ph = 0%nat \/ ph = 1%nat) by lia.
  assert (T : forall t, p_t0 (trip c ph) <= t <= p_tf (trip c ph) -> 0 <= t <= 1) by (intros t; destruct P as [-> | ->]; cbn; lra).
  constructor.
  - destruct P as [-> | ->]; cbn; lra.
  - intros t [|[|s]] Ht Hs; [| |cbn in Hs; lia].
    + apply (is_derive_ext (fun t => 3 * (t * t) - 2 * (t * t * t))); [intros x; cbn; ring|]. auto_derive; [exact I|]. destruct P as [-> | ->]; cbn; ring.
    + apply (is_derive_ext (fun t => 6 * t - 6 * (t * t))); [intros x; cbn; ring|]. auto_derive; [exact I|]. destruct P as [-> | ->]; cbn; ring.
  - intros t x Ht Hx. specialize (T t Ht). set (v := t * (1 - t)).
    assert (A : 0 <= v <= 1 / 4) by (unfold v; split; [apply Rmult_le_pos; lra|pose proof (Rle_0_sqr (t - 1 / 2)); unfold Rsqr in *; lra]).
    assert (E : x = 36 * (v * v) - 4) by (unfold v; destruct P as [-> | ->]; destruct Hx as [<-|[]]; cbn; nred; ring). rewrite E. nra.
  - destruct P as [-> | ->]; intros x Hx; [destruct Hx|]. destruct Hx as [<-|[<-|[]]]; cbn; nred; ring.
  - intros [|[|s]] -> Hs; [| |cbn in Hs; lia]; cbn; ring.
  - intros t s Ht Hs. specialize (T t Ht). assert (W2 : 0 <= t * t <= 1) by (apply unit_mult; lra). assert (W3 : 0 <= t * (t * t) <= 1) by (apply unit_mult; lra).
    destruct P as [-> | ->]; destruct s as [|[|s]]; try (cbn in Hs; lia); cbn; split; cbn [above below]; nred; lra.
  - intros t k Ht Hk. specialize (T t Ht). destruct P as [-> | ->]; (destruct k as [|k]; [|cbn in Hk; lia]); cbn; split; cbn [above below]; nred; lra.
  - destruct P as [-> | ->]; split; cbn; try exact I; lra.
  - destruct P as [-> | ->]; split; cbn; lra.
  - intros i Hi. cbn in Hi. lia.
Qed.
Lemma trip_point cf K orders p c : let mp := Mpo glide2 K orders cf in mpo_ok mp -> widths_ok K 2 p -> (forall q, In q orders -> (3 <= q)%nat) -> 1 / 4 <= c <= 3 / 4 ->
  exists (z : list R) n, input_ok mp glide_npath glide2_nterm z p /\ nlp_at mp z p = Ok n /\ feasible n /\
    forall e, (e < 2)%nat -> y_t0 (user_traj mp z e) < y_tf (user_traj mp z e).
Proof.
  intros mp Hm Hw Hq Hc.
  destruct (exact_thm mp glide_npath glide2_nterm p (trip c) Hm glide2_ok glide2_scales Hw) as (rs & Er & (z & Hz & Hsm) & HE).
  - intros [|[|[|ph]]]; split; reflexivity.
  - intros ph Hph. apply trip_solves; [exact Hc|exact Hph].
  - intros k i j H. destruct k as [|k]; [|destruct k; discriminate H]. cbn in H. injection H as <- <-. split; [|split].
    + intros [|[|s]] Hs; [| |cbn in Hs; lia]; cbn; split; cbn [above below]; nred; lra.
    + intros s _. reflexivity.
    + reflexivity.
  - intros ph _ q Hi. apply Hq in Hi. split; [intros [|[|i]] H; cbn in *; lia|intros k _; cbn; lia].
  - destruct (HE z Hz Hsm) as (n & En & Hf & _). exists z, n. split; [|split; [exact En|split; [exact Hf|]]].
    + constructor; [exact Hm|exact glide2_ok|exact glide2_scales|exact Hz|]. destruct Hw as [Hw _]. rewrite Nat.mul_comm. exact Hw.
    + intros e He. destruct (Hsm e He) as (E1 & E2 & _). rewrite E1, E2. both e He; cbn; lra.
Qed.

(** ** a point of a problem that is infeasible when its phase is cut: no push before the cut, push at the end *)
Definition push : ocp Rnum :=
  Ocp (N := Rnum) 1 1 0 1
    [fun _ u _ _ => Ok [nth 0 u 0]] [fun _ _ _ _ => Ok None] [fun _ _ _ _ _ => Ok (Some 0)]
    [fun _ u _ _ => Ok (Some (nth 0 u 0))] [fun _ _ _ _ _ => Ok None] []
    [1] [1] [] 1 [[0]] [[0]] [[0]] [[0]] [[0]] [[1]] [[]]
    [[Fin 0]] [[Fin 1]] [[Fin 0]] [[Fin 1]] [[]] [[]]
    [[Fin 0]] [[Fin 0]] [[Fin 1]] [[Fin 1]] [] [] [false] [Fin (-15)] [Fin 15] [false] [false].
Definition push2 : ocp Rnum :=
  let dyn := fun (_ : list R) u (_ : R) (_ : option (list R)) => Ok [nth 0 u 0] in
  let path := fun (_ _ : list R) (_ : R) (_ : option (list R)) => Ok None in
  let mayer := fun (_ : list R) (_ : R) (_ : list R) (_ : R) (_ : option (list R)) => Ok (Some 0) in
  let run := fun (_ : list R) u (_ : R) (_ : option (list R)) => Ok (Some (nth 0 u 0)) in
  let term := fun (_ : list R) (_ : R) (_ : list R) (_ : R) (_ : option (list R)) => Ok None in
  Ocp (N := Rnum) 1 1 0 2 [dyn; dyn] [path; path] [mayer; mayer] [run; run] [term; term] [(0, 1)]%nat
    [1] [1] [] 1 [[0]; [0]] [[0]; [0]] [[0]; [0]] [[0]; [0]] [[0]; [0]] [[1]; [1]] [[]; []]
    [[Fin 0]; [Fin 0]] [[Fin 1]; [Fin 1]] [[Fin 0]; [Fin 0]] [[Fin 1]; [Fin 1]] [[]; []] [[]; []]
    [[Fin 0]; [NInf]] [[Fin 0]; [PInf]] [[NInf]; [Fin 1]] [[PInf]; [Fin 1]] [[Fin 0]] [[Fin 0]] [false; false] [Fin (-15); Fin (-15)] [Fin 15; Fin 15] [false; false] [false; false].
Lemma push_ok : ocp_ok push (fun _ => None) (fun _ => None).
Proof.
  constructor.
  { constructor; cbn; auto; try (apply shaped1; reflexivity).
    - split; [reflexivity|]. intros H. lia.
    - split; [reflexivity|]. intros H. lia.
    - intros [|i] [|j] Hi Hj; try lia; cbn; lra.
    - intros [|i] [|j] Hi Hj; try lia; cbn; lra.
    - intros i j Hi Hj; lia.
    - intros [|i] [|j] Hi Hj; try lia; cbn; lra.
    - intros [|i] [|j] Hi Hj; try lia; cbn; lra.
    - intros i j Hi Hj; lia. }
  - cbn; lia.
  - intros ph f x u t a H _ _ _. one ph H; eexists; split; reflexivity.
  - intros ph f x u t a H _ _ _. one ph H; eexists; reflexivity.
  - intros ph f xf tf x0 t0 a H _ _ _. one ph H; eexists; reflexivity.
  - intros ph f x u t a H _ _ _. one ph H; reflexivity.
  - intros ph f xf tf x0 t0 a H _ _ _. one ph H; reflexivity.
  - reflexivity.
  - reflexivity.
  - reflexivity.
  - reflexivity.
  - reflexivity.
  - intros; cbn; lia.
  - intros i j [].
  - cbn; lia.
  - cbn; intros H; lia.
Qed.
Lemma push2_ok : ocp_ok push2 (fun _ => None) (fun _ => None).
Proof.
  constructor.
  { constructor; cbn; auto; try (apply shaped2; reflexivity).
    - split; [reflexivity|]. intros _. split; [reflexivity|]. intros r [<-|[]]; reflexivity.
    - split; [reflexivity|]. intros _. split; [reflexivity|]. intros r [<-|[]]; reflexivity.
    - intros [|[|i]] [|j] Hi Hj; try lia; cbn; lra.
    - intros [|[|i]] [|j] Hi Hj; try lia; cbn; lra.
    - intros i j Hi Hj; lia.
    - intros [|[|i]] [|j] Hi Hj; try lia; cbn; try lra; exact I.
    - intros [|[|i]] [|j] Hi Hj; try lia; cbn; try lra; exact I.
    - intros [|i] [|j] Hi Hj; try lia; cbn; lra. }
  - cbn; lia.
  - intros ph f x u t a H _ _ _. two ph H; eexists; split; reflexivity.
  - intros ph f x u t a H _ _ _. two ph H; eexists; reflexivity.
  - intros ph f xf tf x0 t0 a H _ _ _. two ph H; eexists; reflexivity.
  - intros ph f x u t a H _ _ _. two ph H; reflexivity.
  - intros ph f xf tf x0 t0 a H _ _ _. two ph H; reflexivity.
  - reflexivity.
  - reflexivity.
  - reflexivity.
  - reflexivity.
  - reflexivity.
  - intros; cbn; lia.
  - intros i j [H|[]]. injection H as <- <-. cbn. lia.
  - cbn. lia.
  - intros _ H. discriminate H.
Qed.
Lemma push_scales : scales_pos push.
Proof. constructor; cbn; [intros s [<-|[]]; lra|intros s [<-|[]]; lra|intros s []|lra]. Qed.
Lemma push2_scales : scales_pos push2.
Proof. constructor; cbn; [intros s [<-|[]]; lra|intros s [<-|[]]; lra|intros s []|lra]. Qed.
Lemma push2_cut : cut_phase push push2.
Proof.
  constructor; try reflexivity; try (intros e He; both e He; repeat split; reflexivity); try (repeat split; reflexivity).
  - intros f xf tf x0 t0 a H. injection H as <-. reflexivity.
  - intros f xf tf x0 t0 a H. injection H as <-. reflexivity.
  - intros f f2 xf tf x0 t0 x0' t0' a H H2. injection H as <-. injection H2 as <-. reflexivity.
  - intros f f2 xf tf x0 t0 x0' t0' a H H2. injection H as <-. injection H2 as <-. reflexivity.
  - intros [|s] Hs; try (split; reflexivity). cbn in Hs. lia.
  - split; [reflexivity|]. intros e He; both e He; reflexivity.
Qed.
Definition push2_mp : mpo Rnum := Mpo push2 1 [1]%nat (demo_cf "LGR").
Definition push_mp : mpo Rnum := Mpo push 2 [1; 1]%nat (demo_cf "LGR").
Lemma push2_mpo : mpo_ok push2_mp.
Proof. constructor; cbn [push2_mp mp_cf mp_nseg mp_orders]; [apply demo_cf_ok; cbn; auto|reflexivity|lia|]. intros q [<-|[]]. lia. Qed.
Lemma push_mpo : mpo_ok push_mp.
Proof. constructor; cbn [push_mp mp_cf mp_nseg mp_orders]; [apply demo_cf_ok; cbn; auto|reflexivity|lia|]. intros q [<-|[<-|[]]]; lia. Qed.
Definition pushing : utraj := Utraj (fun i _ => match i with 2%nat => 1 / 2 | _ => 0 end) (fun i _ => match i with 2%nat => 1 | _ => 0 end) 0 1 (fun _ => 0).
Definition push_z : list R := pack push_mp (fun _ => pushing).
Lemma push_input : input_ok push_mp (fun _ => None) (fun _ => None) push_z [1 / 2; 1 / 2].
Proof. constructor; [exact push_mpo|exact push_ok|exact push_scales| |reflexivity]. unfold push_z. rewrite length_pack. reflexivity. Qed.
Lemma push_traj ph : (ph < 1)%nat -> same_traj push_mp (user_traj push_mp push_z ph) pushing.
Proof. intros H. exact (pack_traj push_mp (fun _ => pushing) ph (ok_shapes _ _ _ push_ok) push_scales H). Qed.
Lemma push_widths : widths_ok 2 1 [1 / 2; 1 / 2].
Proof. split; [reflexivity|]. intros ph Hph. assert (ph = 0)%nat as -> by lia. split; [reflexivity|]. split; [intros x [<-|[<-|[]]]; lra|cbn; lra]. Qed.
Lemma push_feasible : exists n, nlp_at push_mp push_z [1 / 2; 1 / 2] = Ok n /\ feasible n.
Proof.
  destruct (nlp_like push_mp _ _ _ _ (fun _ => pushing) push_input push_traj) as (rs & n & Er & En & Hlen & Hf & _). exists n. split; [exact En|]. apply Hf.
  assert (rs = [[-1; 1]; [-1; 1]]) as -> by (pose proof (eq_trans (eq_sym Er) (eq_refl (Ok [[-1; 1]; [-1; 1]]))) as X; injection X as X; exact X).
  split; [|split].
  - intros ph Hph. cbn in Hph. assert (ph = 0)%nat as -> by lia. split; [|split; [|split; [|split]]].
    + intros i s Hi Hs. cbn in Hi, Hs. assert (s = 0)%nat as -> by lia. destruct i as [|[|[|i]]]; [reflexivity| | |lia]; split; cbn; lra.
    + intros i c Hi Hs. cbn in Hi, Hs. assert (c = 0)%nat as -> by lia. destruct i as [|[|[|i]]]; [| | |lia]; cbn; split; cbn; lra.
    + split; cbn; lra.
    + split; cbn; lra.
    + intros i Hi. cbn in Hi. lia.
  - intros ph Hph. cbn in Hph. assert (ph = 0)%nat as -> by lia. split; [|split; [|split; [|split; [|split]]]].
    + intros i k j s c Ho Hs Hc. cbn in Hs. assert (s = 0)%nat as -> by lia. assert (Hk : (k < 2)%nat) by (destruct Ho as (q & Eq & _); exact (nth_error_lt _ _ _ Eq)).
      pose proof (demo_line 2 k _ c Hk Hc) as L. cbn beta in L.
      destruct Ho as (q & Eq & Hj & Hkj & ->). 
      apply (is_derive_ext (fun x => (y_x pushing k 0 + y_x pushing (S k) 0) / 2 + (y_x pushing (S k) 0 - y_x pushing k 0) / 2 * x)); [intros x; symmetry; apply L|].
      destruct k as [|[|k]]; [| |lia]; cbn in Eq; injection Eq as <-; destruct j as [|[|j]]; try lia; (auto_derive; [exact I|cbn; unfold seg_h, width; cbn; nred; field]).
    + intros i k j c _ [].
    + intros H; discriminate H.
    + intros H; discriminate H.
    + intros H; discriminate H.
    + intros c [].
  - intros H. cbn in H. lia.
Qed.
Lemma push_stuck : exists (mp2 : mpo Rnum) o npath nterm npath2 nterm2 z p z2 p2 n n2, let mp := Mpo o (2 * mp_nseg mp2) (mp_orders mp2 ++ mp_orders mp2) (mp_cf mp2) in
  input_ok mp npath nterm z p /\ input_ok mp2 npath2 nterm2 z2 p2 /\ cut_phase o (mp_ocp mp2) /\ joined mp mp2 z p z2 p2 /\ widths_ok (mp_nseg mp2) 2 p2 /\
  (forall t, cut_time_ok (mp_ocp mp2) t) /\ nlp_at mp z p = Ok n /\ nlp_at mp2 z2 p2 = Ok n2 /\ feasible n /\ ~ feasible n2.
Proof.
  destruct push_feasible as (n & En & Hf).
  destruct (cut_exists push2_mp push _ _ _ _ push_z [1 / 2; 1 / 2] push_input push2_mpo push2_ok push2_scales push2_cut push_widths) as (z2 & p2 & Hin2 & Hw2 & Hj).
  assert (HS : Rsum 1 (width push2_mp p2 0) = 1) by exact (proj2 (part_widths push2_mp p2 push2_mpo Hw2 0 ltac:(cbn; lia))).
  destruct (cut_thm push2_mp push _ _ _ _ push_z [1 / 2; 1 / 2] z2 p2 push_input Hin2 push2_cut Hj HS) as (r & n1 & n2 & Er & E1 & E2 & H & _).
  assert (n1 = n) as -> by (pose proof (eq_trans (eq_sym E1) En) as X; injection X as X; exact X).
  assert (r = [-1; 1]) as -> by (pose proof (eq_trans (eq_sym Er) (eq_refl (Ok [-1; 1]))) as X; injection X as X; exact X).
  exists push2_mp, push, (fun _ => None), (fun _ => None), (fun _ => None), (fun _ => None), push_z, [1 / 2; 1 / 2], z2, p2, n, n2. intros mp.
  split; [exact push_input|]. split; [exact Hin2|]. split; [exact push2_cut|]. split; [exact Hj|]. split; [exact Hw2|].
  split; [intros t; split; split; exact I|]. split; [exact En|]. split; [exact E2|]. split; [exact Hf|].
  intros F. apply H in F. destruct F as (_ & _ & D & _). specialize (D 0%nat [1 / 4; 1 / 4] ltac:(cbn; lia)).
  pose proof (push_traj 0 ltac:(lia)) as (T1 & T2 & _).
  set (y2 := user_traj push2_mp z2 1) in *.
  assert (X0 : y_x y2 0 0 = 0) by exact (eq_trans (eq_sym (jn_x _ _ _ _ _ _ Hj 1%nat 0%nat 0%nat ltac:(cbn; lia) ltac:(cbn; lia) ltac:(cbn; lia))) (T1 1%nat 0%nat ltac:(cbn; lia) ltac:(cbn; lia))).
  assert (X1 : y_x y2 1 0 = 1 / 2) by exact (eq_trans (eq_sym (jn_x _ _ _ _ _ _ Hj 1%nat 1%nat 0%nat ltac:(cbn; lia) ltac:(cbn; lia) ltac:(cbn; lia))) (T1 2%nat 0%nat ltac:(cbn; lia) ltac:(cbn; lia))).
  assert (U0 : y_u y2 0 0 = 0) by exact (eq_trans (eq_sym (jn_u _ _ _ _ _ _ Hj 1%nat 0%nat 0%nat ltac:(cbn; lia) ltac:(cbn; lia) ltac:(cbn; lia))) (T2 1%nat 0%nat ltac:(cbn; lia) ltac:(cbn; lia))).
  assert (I : interpolates [1 / 4; 1 / 4] [-1; 1] (fun j => y_x y2 j 0)).
  { split; [cbn; lia|]. intros [|[|k]] Hk; [| |cbn in Hk; lia]; cbn [nth]; [rewrite X0|rewrite X1]; cbn; nred; field. }
  specialize (D I). apply is_derive_unique in D.
  assert (D' : Derive (peval [1 / 4; 1 / 4]) (nth 0 [-1; 1] 0) = 1 / 4).
  { apply is_derive_unique. apply (is_derive_ext (fun x => 1 / 4 + x * (1 / 4))); [intros x; cbn; nred; ring|]. auto_derive; [exact Logic.I|ring]. }
  rewrite D' in D. assert (V : dyn_val (mp_ocp push2_mp) 1 y2 0 (y_t0 y2) = [y_u y2 0 0]) by reflexivity. rewrite V, U0 in D. cbn [nth] in D. lra.
Qed.
