(** The moon lander of tests/test_mpopt.py:113-144 on any mesh (examples for C58, C59). *)
From Coq Require Import Reals Lia Lra Psatz Bool Arith String.
From Coquelicot Require Import Coquelicot.
From Coq Require Import List.
From Verif Require Import Num PyList Mat Poly Roots Colloc Ocp Transcribe Spec SpecOcp SpecHadapt SpecBalance SpecExact NumR ListR PolyR CollocR CompR CollocThm JacobiR MeshR BlockR DiscR NlpR OcpR NlpThm GuessR CostR BalanceR ScaleR NlpMain ExactR ExOcp ExNlp.
Import ListNotations.
Open Scope R_scope.

(** mp.OCP(n_states=2, n_controls=1) with the assignments of the fixture *)
Definition lander : ocp Rnum :=
  Ocp (N := Rnum) 2 1 0 1
    [fun x u _ _ => Ok [nth 1 x 0; nth 0 u 0 - 3 / 2]] [fun _ _ _ _ => Ok None] [fun _ _ _ _ _ => Ok (Some 0)]
    [fun _ u _ _ => Ok (Some (nth 0 u 0))] [fun xf _ _ _ _ => Ok (Some [nth 0 xf 0; nth 1 xf 0])] []
    [1; 1] [1] [] 1 [[10; -2]] [[0; 0]] [[0]] [[0]] [[0]] [[4]] [[]]
    [[Fin (-20); Fin (-20)]] [[Fin 20; Fin 20]] [[Fin 0]] [[Fin 3]] [[]] [[]]
    [[Fin 0]] [[Fin 0]] [[Fin 3]] [[Fin 5]] [] [] [false] [Fin (-15)] [Fin 15] [true] [false].
Lemma lander_shapes : shapes_ok lander.
Proof.
  constructor; cbn; auto; try (apply shaped1; reflexivity).
  - split; [reflexivity|]. intros H. lia.
  - split; [reflexivity|]. intros H. lia.
  - intros [|i] [|[|j]] Hi Hj; try lia; cbn; lra.
  - intros [|i] [|j] Hi Hj; try lia; cbn; lra.
  - intros i j Hi Hj; lia.
  - intros [|i] [|j] Hi Hj; try lia; cbn; lra.
  - intros [|i] [|j] Hi Hj; try lia; cbn; lra.
  - intros i j Hi Hj; lia.
Qed.
Definition lander_nterm (ph : nat) : option nat := Some 2%nat.
Lemma lander_ok : ocp_ok lander (fun _ => None) lander_nterm.
Proof.
  constructor; [exact lander_shapes|cbn; lia|..].
  - intros ph f x u t a H _ _ _. one ph H; eexists; split; reflexivity.
  - intros ph f x u t a H _ _ _. one ph H; eexists; reflexivity.
  - intros ph f xf tf x0 t0 a H _ _ _. one ph H; eexists; reflexivity.
  - intros ph f x u t a H _ _ _. one ph H; reflexivity.
  - intros ph f xf tf x0 t0 a H _ _ _. one ph H; cbn; eexists; split; reflexivity.
  - reflexivity.
  - reflexivity.
  - reflexivity.
  - reflexivity.
  - reflexivity.
  - intros; cbn; lia.
  - intros i j [].
  - cbn; lia.
  - cbn; intros H; lia.
Qed.
Lemma lander_scales : scales_pos lander.
Proof. constructor; cbn; [intros s [<-|[<-|[]]]; lra|intros s [<-|[]]; lra|intros s []|lra]. Qed.
Lemma lander_no_slopes : no_slopes lander.
Proof. intros [|[|ph]]; split; reflexivity. Qed.

(** a landing after 5 time units *)
Definition landing : ptraj :=
  Ptraj (fun s => match s with O => [10; -2; - (1 / 2); 3 / 25; - (1 / 250)] | _ => [-2; -1; 9 / 25; - (2 / 125)] end)
        (fun _ => [1 / 2; 18 / 25; - (6 / 125)]) 0 5 (fun _ => 0).
Lemma landing_solves : solves lander 0 landing.
Proof.
  constructor; cbn [landing p_t0 p_tf p_x p_u p_a].
  - lra.
  - intros t [|[|s]] Ht Hs; [| |cbn in Hs; lia].
    + apply (is_derive_ext (fun t => 10 - 2 * t - t * t / 2 + 3 / 25 * (t * t * t) - 1 / 250 * (t * t * t * t))); [intros x; cbn; field|].
      auto_derive; [exact I|]. cbn. field.
    + apply (is_derive_ext (fun t => - 2 - t + 9 / 25 * (t * t) - 2 / 125 * (t * t * t))); [intros x; cbn; field|].
      auto_derive; [exact I|]. cbn. field.
  - intros t c _ [].
  - intros c Hc. cbn in Hc. destruct Hc as [<-|[<-|[]]]; field.
  - intros [|[|s]] _ Hs; [| |cbn in Hs; lia]; cbn; field.
  - intros t [|[|s]] Ht Hs; [| |cbn in Hs; lia]; cbn; assert (0 <= t * t <= 25) by nra; assert (0 <= t * (t * t) <= 125) by nra; assert (0 <= t * t * (t * t) <= 625) by nra; split; cbn [above below].
    + nra.
    + assert (0 <= t * t * (5 - t)) by (apply Rmult_le_pos; nra). nra.
    + nra.
    + nra.
  - intros t [|c] Ht Hc; [|cbn in Hc; lia]. cbn. split; cbn [above below]; nra.
  - split; cbn; lra.
  - split; cbn; lra.
  - intros i Hi. cbn in Hi. lia.
Qed.
Lemma landing_linked : linked lander (fun _ => landing).
Proof. intros k i j H. destruct k; discriminate H. Qed.
Lemma lander_rate : cost_rate lander 0 (fun s => if Nat.eqb s 1 then 1 else 0) (3 / 2).
Proof. intros f g x u t a d l Hf Hg _ _ _ Ed El. cbn in Hf, Hg. injection Hf as <-. injection Hg as <-. injection Ed as <-. injection El as <-. cbn. ring. Qed.

Section Mesh.
Variables (cf : ccfg Rnum) (K : nat) (orders : list nat) (p : list R).
Let mp : mpo Rnum := Mpo lander K orders cf.
Hypothesis Hcf : cfg_ok cf.
Hypothesis HK : (1 <= K)%nat.
Hypothesis Hlen : length orders = K.
Hypothesis Hs : cf_scheme cf = "LGR"%string.
Hypothesis Hw : widths_ok K 1 p.
(** every feasible point costs 2 + 3/2 * (its final time) *)
Lemma lander_cost : (forall q, In q orders -> (2 <= q)%nat) -> forall z, length z = nvars mp ->
  exists n, nlp_at mp z p = Ok n /\ (feasible n -> n_f n = 2 + 3 / 2 * y_tf (user_traj mp z 0) /\ 13 / 2 <= n_f n <= 19 / 2).
Proof.
  intros Hq z Hz. assert (Hmp : mpo_ok mp) by (constructor; cbn; auto; intros q Hi; apply Hq in Hi; lia).
  assert (Hlp : length p = (1 * K)%nat) by (destruct Hw as [L _]; lia).
  assert (Hz1 : length z = (o_nph (mp_ocp mp) * nvars mp)%nat) by (change (o_nph (mp_ocp mp)) with 1%nat; nred; lia).
  assert (Hin : input_ok mp (fun _ => None) lander_nterm z p) by (constructor; [exact Hmp|exact lander_ok|exact lander_scales|exact Hz1|exact Hlp]).
  destruct (balance_thm mp _ _ z p (fun _ s => if Nat.eqb s 1 then 1 else 0) (fun _ => 3 / 2) Hin) as (rs & n & _ & En & _ & HF).
  { intros ph Hph. cbn in Hph. assert (ph = 0)%nat as -> by lia. exact lander_rate. }
  exists n. split; [exact En|]. intros Hf. destruct (HF Hf) as [_ HE].
  assert (Htl : forall q, In q (tl orders) -> (2 <= q)%nat) by (intros q Hi; apply Hq; destruct orders; [destruct Hi|right; exact Hi]).
  specialize (HE (or_introl (conj Hs Htl))).
  destruct (nlp_at_ok mp Hmp _ _ lander_ok lander_scales z p Hz1 Hlp) as (rs' & n' & _ & En' & _ & _ & _ & _ & _ & _ & Hb & Hsat & _).
  assert (n' = n) as -> by (pose proof (eq_trans (eq_sym En') En) as X; injection X as X; exact X).
  destruct Hf as [Hf1 Hf2]. pose proof (proj1 Hb Hf1) as Hb1. pose proof (proj1 (proj1 Hsat Hf2)) as Hb2. clear Hf1 Hf2. rename Hb1 into Hf1. rename Hb2 into Hf2. specialize (Hf1 0%nat ltac:(cbn; lia)). specialize (Hf2 0%nat ltac:(cbn; lia)).
  destruct Hf1 as (Bx & _ & B0 & Bf & _). destruct Hf2 as (_ & _ & _ & _ & _ & Ht).
  assert (Hn0 : (0 < total_nodes (mp_orders mp))%nat) by (unfold total_nodes; lia).
  assert (Y1 : y_x (user_traj mp z 0) 0 1 = -2) by (exact (Bx 0%nat 1%nat Hn0 ltac:(cbn; lia))).
  assert (Y2 : y_x (user_traj mp z 0) (total_nodes (mp_orders mp) - 1) 1 = 0) by (apply Ht; right; left; reflexivity).
  assert (Y3 : y_t0 (user_traj mp z 0) = 0) by (destruct B0 as [b1 b2]; cbn in b1, b2; apply Rle_antisym; [exact b2|exact b1]).
  assert (Y4 : 3 <= y_tf (user_traj mp z 0) <= 5) by (destruct Bf as [b1 b2]; cbn in b1, b2; split; [exact b1|exact b2]).
  destruct (part_widths mp p Hmp Hw 0%nat ltac:(cbn; lia)) as [_ W].
  assert (E : n_f n = 2 + 3 / 2 * y_tf (user_traj mp z 0)).
  { nred. rewrite HE. change (o_nph (mp_ocp mp)) with 1%nat. cbn [Rsum]. unfold balance. change (o_nx (mp_ocp mp)) with 2%nat. cbn [Rsum Nat.eqb]. rewrite Y1, Y2, Y3, W.
    change (mayer_val (mp_ocp mp) 0 (user_traj mp z 0) (total_nodes (mp_orders mp) - 1)) with 0. match goal with |- @eq _ ?a ?b => change (@eq R a b) end. ring. }
  split; [exact E|]. nred. rewrite E. lra.
Qed.
(** and there is one on every mesh whose orders are at least 4 *)
Lemma lander_feasible : (forall q, In q orders -> (4 <= q)%nat) -> exists z n, length z = nvars mp /\ nlp_at mp z p = Ok n /\ feasible n /\ n_f n = 19 / 2.
Proof.
  intros Hq. assert (Hmp : mpo_ok mp) by (constructor; cbn; auto; intros q Hi; apply Hq in Hi; lia).
  destruct (exact_thm mp (fun _ => None) lander_nterm p (fun _ => landing) Hmp lander_ok lander_scales Hw lander_no_slopes) as (rs & _ & (z & Hz & Hsm) & HE).
  - intros ph Hph. cbn in Hph. assert (ph = 0)%nat as -> by lia. exact landing_solves.
  - exact landing_linked.
  - intros ph _ q Hi. apply Hq in Hi. split; [intros [|[|s]] H; cbn in *; lia|intros c _; cbn; lia].
  - destruct (HE z Hz Hsm) as (n & En & Hf & HC). exists z, n. split; [change (o_nph (mp_ocp mp)) with 1%nat in Hz; nred; lia|]. split; [exact En|]. split; [exact Hf|].
    nred. rewrite (HC (fun _ => [1 / 2; 18 / 25; - (6 / 125)])).
    + cbn [mp mp_ocp lander o_nph Rsum]. unfold exact_cost. rewrite RInt_peval. cbn. field.
    + intros ph Hph t _. cbn in Hph. assert (ph = 0)%nat as -> by lia. reflexivity.
    + left. split; [exact Hs|]. intros ph q _ Hi. apply Hq in Hi. cbn. lia.
Qed.
End Mesh.
(** ** a running cost of 1 that is not integrated exactly *)
Lemma balance_wrong : exists mp npath nterm z p n alpha beta,
  input_ok mp npath nterm z p /\ widths_ok (mp_nseg mp) (o_nph (mp_ocp mp)) p /\ o_nph (mp_ocp mp) = 1%nat /\ cost_rate (mp_ocp mp) 0 alpha beta /\
  nlp_at mp z p = Ok n /\ feasible n /\ balance mp (width mp p 0) 0 (user_traj mp z 0) alpha beta = 1 /\ n_f n = 3 / 4.
Proof.
  set (mp := demo_mp 1 1 [1] false false [0] [0] 2).
  assert (Hpos : forall s, In s [1] -> 0 < s) by sing.
  destruct (demo_z 1 1 [1] false false [0] [0] eq_refl eq_refl eq_refl Hpos (le_n 1) 2 ltac:(lia) (fun _ _ => 0) 1 [1 / 2; 1 / 2] ltac:(lra) eq_refl)
    as (z & n & Hin & Hn & Hs & Hf & Hc). fold mp in Hin, Hn, Hs, Hf, Hc.
  set (y := rest (fun _ _ => 0) 0 1) in *. set (rs := repeat [-1; 1] 2) in *. set (w := width mp [1 / 2; 1 / 2] 0) in *.
  assert (HC : cost_interp mp rs w 0 y (fun _ => [1])).
  { intros [|[|k]] Hk; [| |cbn in Hk; lia]; (split; [cbn; lia|]; intros [|[|j]] Hj; [| |cbn in Hj; lia]; cbn; ring). }
  assert (HB : start_basis mp rs (fun _ => [1 / 2; - (1 / 2)])).
  { intros [|[|k]] Hk; [| |cbn in Hk; lia]; (split; [cbn; lia|]; intros [|[|j]] Hj; [| |cbn in Hj; lia]; cbn; field). }
  assert (I1 : RInt (peval [1]) (-1) 1 = 2) by (rewrite RInt_peval; cbn; field).
  assert (I2 : RInt (peval [1 / 2; - (1 / 2)]) (-1) 1 = 1) by (rewrite RInt_peval; cbn; field).
  exists mp, (fun _ => None), (fun _ => None), z, [1 / 2; 1 / 2], n, (fun _ => 0), 1.
  split; [exact Hin|]. split; [split; [reflexivity|]; intros ph Hph; cbn in Hph; assert (ph = 0)%nat as -> by lia; split; [reflexivity|]; split; [intros x [<-|[<-|[]]]; lra|cbn; field]|].
  split; [reflexivity|]. split.
  { intros f g x u t a d l Hf' Hg _ _ _ Ed El. cbn in Hf', Hg. injection Hf' as <-. injection Hg as <-. injection Ed as <-. injection El as <-. cbn. ring. }
  split; [exact Hn|]. split; [apply Hf; split; intros H; cbn in H; discriminate|].
  split; [destruct Hs as (_ & _ & E0 & E1 & _); unfold balance; rewrite E0, E1; cbn; field|].
  rewrite (Hc _ _ HC HB). unfold phase_cost, start_cost. cbn [mp demo_mp mp_orders repeat length Nat.sub Rsum mp_cf demo_cf cf_tau0 cf_tau1]. rewrite I1, I2.
  unfold seg_h, w, width, run_at. cbn. field.
Qed.

(** ** two phases with a jump of the state between them *)
Definition hop : ocp Rnum :=
  Ocp (N := Rnum) 1 1 0 2
    [fun _ u _ _ => Ok [nth 0 u 0]; fun _ u _ _ => Ok [nth 0 u 0]] [fun _ _ _ _ => Ok None; fun x _ t _ => Ok (Some [nth 0 x 0 - t])]
    [fun _ _ _ _ _ => Ok (Some 0); fun xf _ _ _ _ => Ok (Some (nth 0 xf 0))]
    [fun x _ _ _ => Ok (Some (nth 0 x 0 * nth 0 x 0)); fun x _ _ _ => Ok (Some (nth 0 x 0 * nth 0 x 0))]
    [fun _ _ _ _ _ => Ok None; fun xf tf _ _ _ => Ok (Some [tf - 2])] [(0, 1)]%nat
    [1] [2] [] (1 / 2) [[0]; [0]] [[1]; [1]] [[0]; [0]] [[0]; [0]] [[0]; [1]] [[1]; [2]] [[]; []]
    [[Fin 0]; [Fin 0]] [[PInf]; [PInf]] [[Fin (-1)]; [Fin (-1)]] [[Fin 1]; [Fin 1]] [[]; []] [[]; []]
    [[Fin 0]; [Fin 0]] [[Fin 0]; [PInf]] [[Fin 1]; [Fin 1]] [[Fin 1]; [PInf]] [[Fin (- (1 / 2))]] [[Fin (- (1 / 2))]]
    [false; false] [Fin (-15); Fin (-15)] [Fin 15; Fin 15] [true; true] [false; false].
Definition hop_npath (ph : nat) : option nat := match ph with 1%nat => Some 1%nat | _ => None end.
Definition hop_nterm (ph : nat) : option nat := match ph with 1%nat => Some 1%nat | _ => None end.
Lemma hop_ok : ocp_ok hop hop_npath hop_nterm.
Proof.
  constructor.
  { constructor; cbn; auto; try (apply shaped2; reflexivity).
    - split; [reflexivity|]. intros _. split; [reflexivity|]. intros r [<-|[]]; reflexivity.
    - split; [reflexivity|]. intros _. split; [reflexivity|]. intros r [<-|[]]; reflexivity.
    - intros [|[|i]] [|j] Hi Hj; try lia; cbn; auto; lra.
    - intros [|[|i]] [|j] Hi Hj; try lia; cbn; auto; lra.
    - intros i j Hi Hj; lia.
    - intros [|[|i]] [|j] Hi Hj; try lia; cbn; auto; lra.
    - intros [|[|i]] [|j] Hi Hj; try lia; cbn; auto; lra.
    - intros [|i] [|j] Hi Hj; try lia; cbn; auto; lra. }
  - cbn; lia.
  - intros ph f x u t a H _ _ _. two ph H; eexists; split; reflexivity.
  - intros ph f x u t a H _ _ _. two ph H; eexists; reflexivity.
  - intros ph f xf tf x0 t0 a H _ _ _. two ph H; eexists; reflexivity.
  - intros ph f x u t a H _ _ _. two ph H; cbn; [reflexivity|eexists; split; reflexivity].
  - intros ph f xf tf x0 t0 a H _ _ _. two ph H; cbn; [reflexivity|eexists; split; reflexivity].
  - reflexivity.
  - reflexivity.
  - reflexivity.
  - reflexivity.
  - reflexivity.
  - intros; cbn; lia.
  - intros i j [H|[]]. injection H as <- <-. cbn. lia.
  - cbn. lia.
  - intros _ H. discriminate H.
Qed.
Lemma hop_scales : scales_pos hop.
Proof. constructor; cbn; [intros s [<-|[]]; lra|intros s [<-|[]]; lra|intros s []|lra]. Qed.
Definition hopping (ph : nat) : ptraj :=
  match ph with
  | 0%nat => Ptraj (fun _ => [0; 1]) (fun _ => [1]) 0 1 (fun _ => 0)
  | _ => Ptraj (fun _ => [- (1 / 2); 1]) (fun _ => [1]) 1 2 (fun _ => 0)
  end.
Lemma hop_solves : forall ph, (ph < 2)%nat -> solves hop ph (hopping ph).
Proof.
  intros [|[|ph]] Hph; [| |lia]; constructor; cbn [hopping p_t0 p_tf p_x p_u p_a]; try lra.
  - intros t [|s] Ht Hs; [|cbn in Hs; lia]. apply (is_derive_ext (fun t : R => t)); [intros x; match goal with |- @eq _ ?a ?b => change (@eq R a b) end; cbn; lra|]. auto_derive; [exact I|]. cbn. match goal with |- @eq _ ?a ?b => change (@eq R a b) end; lra.
  - intros t c _ [].
  - intros c [].
  - intros [|s] _ Hs; [|cbn in Hs; lia]. cbn. field.
  - intros t [|s] Ht Hs; [|cbn in Hs; lia]. split; cbn; [lra|exact I].
  - intros t [|c] Ht Hc; [|cbn in Hc; lia]. split; cbn; lra.
  - split; cbn; lra.
  - split; cbn; lra.
  - intros i Hi. cbn in Hi. lia.
  - intros t [|s] Ht Hs; [|cbn in Hs; lia]. apply (is_derive_ext (fun t : R => t - 1 / 2)); [intros x; match goal with |- @eq _ ?a ?b => change (@eq R a b) end; cbn; lra|]. auto_derive; [exact I|]. cbn. match goal with |- @eq _ ?a ?b => change (@eq R a b) end; lra.
  - intros t c Ht Hc. cbn in Hc. destruct Hc as [<-|[]]. lra.
  - intros c Hc. cbn in Hc. destruct Hc as [<-|[]]. lra.
  - intros s E. discriminate E.
  - intros t [|s] Ht Hs; [|cbn in Hs; lia]. split; cbn; [lra|exact I].
  - intros t [|c] Ht Hc; [|cbn in Hc; lia]. split; cbn; lra.
  - split; cbn; [lra|exact I].
  - split; cbn; [lra|exact I].
  - intros i Hi. cbn in Hi. lia.
Qed.
Lemma hop_linked : linked hop hopping.
Proof.
  intros [|[|k]] i j H; cbn in H; try discriminate H. injection H as <- <-. split; [|split].
  - intros [|s] Hs; [|cbn in Hs; lia]. split; cbn; lra.
  - intros [|c] Hc; [|cbn in Hc; lia]. reflexivity.
  - reflexivity.
Qed.
Definition hop_mp : mpo Rnum := Mpo hop 2 [2; 3]%nat (demo_cf "LGR").
Definition hop_p : list R := [1 / 4; 3 / 4; 1 / 3; 2 / 3].
Lemma hop_case : exists rs z n, mapM (c_roots (mp_cf hop_mp)) (mp_orders hop_mp) = Ok rs /\
  (forall ph, (ph < 2)%nat -> samples hop_mp rs (width hop_mp hop_p ph) (hopping ph) (user_traj hop_mp z ph)) /\
  nlp_at hop_mp z hop_p = Ok n /\ feasible n /\ n_f n = 35 / 12.
Proof.
  assert (Hmp : mpo_ok hop_mp).
  { constructor; cbn [hop_mp mp_cf mp_nseg mp_orders]; [apply demo_cf_ok; cbn; auto|reflexivity|lia|]. intros p [<-|[<-|[]]]; lia. }
  assert (Hw : widths_ok (mp_nseg hop_mp) (o_nph (mp_ocp hop_mp)) hop_p).
  { split; [reflexivity|]. intros [|[|ph]] Hph; [| |cbn in Hph; lia]; (split; [reflexivity|]; split; [intros x [<-|[<-|[]]]; lra|cbn; field]). }
  destruct (exact_thm hop_mp hop_npath hop_nterm hop_p hopping Hmp hop_ok hop_scales Hw) as (rs & Er & (z & Hz & Hsm) & HE).
  - intros [|[|[|ph]]]; split; reflexivity.
  - exact hop_solves.
  - exact hop_linked.
  - intros [|[|ph]] Hph q Hi; [| |cbn in Hph; lia]; cbn in Hi; destruct Hi as [<-|[<-|[]]]; split; intros; cbn; lia.
  - destruct (HE z Hz Hsm) as (n & En & Hf & HC). exists rs, z, n. split; [exact Er|]. split; [exact Hsm|]. split; [exact En|]. split; [exact Hf|].
    nred. rewrite (HC (fun ph => match ph with 0%nat => [0; 0; 1] | _ => [1 / 4; -1; 1] end)).
    + change (o_nph (mp_ocp hop_mp)) with 2%nat. cbn [Rsum]. unfold exact_cost. rewrite !RInt_peval. cbn. field.
    + intros [|[|ph]] Hph t Ht; [| |cbn in Hph; lia]; cbn; field.
    + left. split; [reflexivity|]. intros [|[|ph]] q Hph Hi; [| |cbn in Hph; lia]; cbn in Hi; destruct Hi as [<-|[<-|[]]]; cbn; lia.
Qed.
