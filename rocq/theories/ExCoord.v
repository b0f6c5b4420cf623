(** The cart of C60 in other coordinates, and a problem in curved coordinates (examples for C70). *)
From Coq Require Import Reals Lia Lra Psatz Bool Arith String.
From Coquelicot Require Import Coquelicot.
From Coq Require Import List.
From Verif Require Import Num PyList Mat Poly Roots Colloc Ocp Transcribe Spec SpecOcp SpecHadapt SpecExact SpecCoord NumR ListR PolyR MeshR BlockR DiscR NlpR NlpThm ScaleR ExactR TransR ExOcp ExGlide ExTrack CoordR.
Import ListNotations.
Open Scope R_scope.

(** position = 4 - 2 w1, speed = 5 w0, control = 1 - v / 2, time = 2 s - 1 *)
Definition tilt : chart :=
  Chart (fun i j => match i, j with 0%nat, 1%nat => -2 | 1%nat, 0%nat => 5 | _, _ => 0 end)
    (fun i j => match i, j with 0%nat, 1%nat => 1 / 5 | 1%nat, 0%nat => - 1 / 2 | _, _ => 0 end)
    (fun i => match i with 0%nat => 4 | _ => 0 end)
    (fun _ _ => - 1 / 2) (fun _ _ => -2) (fun _ => 1) (fun _ _ => 0) (fun _ _ => 0) (fun _ => 0) 2 (-1).
Lemma tilt_ok : chart_ok tilt 2 1 0.
Proof.
  constructor; cbn [tilt c_X c_Xi c_U c_Ui c_A c_Ai c_T]; try lra.
  - intros [|[|i]] [|[|j]] Hi Hj; try lia; cbn; field.
  - intros [|[|i]] [|[|j]] Hi Hj; try lia; cbn; field.
  - intros [|i] [|j] Hi Hj; try lia; cbn; field.
  - intros [|i] [|j] Hi Hj; try lia; cbn; field.
  - intros i j Hi; lia.
  - intros i j Hi; lia.
Qed.
Definition tilted : ocp Rnum :=
  Ocp (N := Rnum) 2 1 0 1
    [fun w v _ _ => Ok [(2 - nth 0 v 0) / 5; -5 * nth 0 w 0]] [fun w _ _ _ => Ok (Some [25 * (nth 0 w 0 * nth 0 w 0) - 4])] [fun _ _ _ _ _ => Ok (Some 0)]
    [fun _ v _ _ => Ok (Some (2 * ((1 - nth 0 v 0 / 2) * (1 - nth 0 v 0 / 2))))] [fun wf _ _ _ _ => Ok (Some [nth 0 wf 0; 3 - 2 * nth 1 wf 0])] []
    [10; 1 / 10] [3] [] (1 / 4) [[0; 2]] [[0; 3 / 2]] [[0]] [[0]] [[1 / 2]] [[1]] [[]]
    [[Fin (-10); Fin (-23)]] [[Fin 10; Fin 27]] [[Fin (-98)]] [[Fin 102]] [[]] [[]]
    [[Fin (1 / 2)]] [[Fin (1 / 2)]] [[Fin 1]] [[Fin 1]] [] [] [false] [Fin (-15)] [Fin 15] [true] [false].
Definition tilted_npath (ph : nat) : option nat := Some 1%nat.
Definition tilted_nterm (ph : nat) : option nat := Some 2%nat.
Lemma tilted_ok : ocp_ok tilted tilted_npath tilted_nterm.
Proof.
  constructor.
  { constructor; cbn; auto; try (apply shaped1; reflexivity).
    - split; [reflexivity|]. intros H. lia.
    - split; [reflexivity|]. intros H. lia.
    - intros [|i] [|[|j]] Hi Hj; try lia; cbn; lra.
    - intros [|i] [|j] Hi Hj; try lia; cbn; lra.
    - intros i j Hi Hj; lia.
    - intros [|i] [|j] Hi Hj; try lia; cbn; lra.
    - intros [|i] [|j] Hi Hj; try lia; cbn; lra.
    - intros i j Hi Hj; lia. }
  - cbn; lia.
  - intros ph f x u t a H _ _ _. one ph H; eexists; split; reflexivity.
  - intros ph f x u t a H _ _ _. one ph H; eexists; reflexivity.
  - intros ph f xf tf x0 t0 a H _ _ _. one ph H; eexists; reflexivity.
  - intros ph f x u t a H _ _ _. one ph H; cbn; eexists; split; reflexivity.
  - intros ph f xf tf x0 t0 a H _ _ _. one ph H; cbn; eexists; split; reflexivity.
  - reflexivity.
  - reflexivity.
  - reflexivity.
  - reflexivity.
  - reflexivity.
  - intros; cbn; lia.
  - intros i j [].
  - cbn; lia.
  - cbn; intros H; lia.
Qed.
Lemma tilted_scales : scales_pos tilted.
Proof. constructor; cbn; [intros s [<-|[<-|[]]]; lra|intros s [<-|[]]; lra|intros s []|lra]. Qed.
Lemma tilted_coords : in_coords tilt glide tilted.
Proof.
  constructor; try reflexivity.
  - intros ph y i t s Hph Hs. cbn in Hph. assert (ph = 0)%nat as -> by lia. destruct s as [|[|s]]; [| |cbn in Hs; lia]; unfold lin, aff; cbn; nred; unfold lin, aff; cbn; nred; field.
  - intros ph y i t Hph. cbn in Hph. assert (ph = 0)%nat as -> by lia. cbn. unfold aff, lin. cbn. nred.
    split; intros H c [<-|[]]; specialize (H _ (or_introl eq_refl)); nred; nra.
  - intros ph y last Hph. cbn in Hph. assert (ph = 0)%nat as -> by lia. cbn. unfold aff, lin. cbn. nred.
    split; intros H; pose proof (H _ (or_introl eq_refl)) as A; pose proof (H _ (or_intror (or_introl eq_refl))) as B; intros c [<-|[<-|[]]]; nred; lra.
  - intros ph y i t Hph. cbn in Hph. assert (ph = 0)%nat as -> by lia. cbn. unfold aff, lin. cbn. nred. field.
  - intros ph y last Hph. cbn in Hph. assert (ph = 0)%nat as -> by lia. reflexivity.
  - intros [|[|s]] Hs; [| |cbn in Hs; lia]; unfold aff, lin; cbn; nred; field.
  - intros ph v Hph. cbn in Hph. assert (ph = 0)%nat as -> by lia. unfold box, aff, lin. cbn.
    split; intros H; pose proof (H 0%nat ltac:(lia)) as A; pose proof (H 1%nat ltac:(lia)) as B; cbn in A, B; unfold within, above, below in *; intros [|[|i]] Hi; try lia; cbn; nred; lra.
  - intros ph v Hph. cbn in Hph. assert (ph = 0)%nat as -> by lia. unfold box, aff, lin. cbn.
    split; intros H; pose proof (H 0%nat ltac:(lia)) as A; cbn in A; unfold within, above, below in *; intros [|i] Hi; try lia; cbn; nred; lra.
  - intros ph v Hph. split; intros H i Hi; cbn in Hi; lia.
  - intros ph t Hph. cbn in Hph. assert (ph = 0)%nat as -> by lia. unfold within, above, below. cbn. nred. lra.
  - intros ph t Hph. cbn in Hph. assert (ph = 0)%nat as -> by lia. unfold within, above, below. cbn. nred. lra.
  - intros k v Hk. cbn in Hk. lia.
  - intros ph v Hph H. cbn in Hph. assert (ph = 0)%nat as -> by lia. discriminate H.
Qed.

(** ** curved coordinates: x' = 1 from 1, and its logarithm w, w' = exp (- w) from 0 *)
Definition ramp (x0 : R) (d : R -> R) : ocp Rnum :=
  Ocp (N := Rnum) 1 1 0 1
    [fun x _ _ _ => Ok [d (nth 0 x 0)]] [fun _ _ _ _ => Ok None] [fun _ _ _ _ _ => Ok (Some 0)]
    [fun _ _ _ _ => Ok (Some 0)] [fun _ _ _ _ _ => Ok None] []
    [1] [1] [] 1 [[x0]] [[x0]] [[0]] [[0]] [[0]] [[1]] [[]]
    [[NInf]] [[PInf]] [[Fin (-1)]] [[Fin 1]] [[]] [[]]
    [[Fin 0]] [[Fin 0]] [[Fin 1]] [[Fin 1]] [] [] [false] [Fin (-15)] [Fin 15] [false] [false].
Lemma ramp_ok x0 d : ocp_ok (ramp x0 d) (fun _ => None) (fun _ => None).
Proof.
  constructor.
  { constructor; cbn; auto; try (apply shaped1; reflexivity).
    - split; [reflexivity|]. intros H. lia.
    - split; [reflexivity|]. intros H. lia.
    - intros [|i] [|j] Hi Hj; try lia; cbn; auto.
    - intros [|i] [|j] Hi Hj; try lia; cbn; lra.
    - intros i j Hi Hj; lia.
    - intros [|i] [|j] Hi Hj; try lia; cbn; lra.
    - intros [|i] [|j] Hi Hj; try lia; cbn; lra.
    - intros i j Hi Hj; lia. }
  - cbn; lia.
  - intros ph f x u t a H _ _ _. one ph H; eexists; split; reflexivity.
  - intros ph f x u t a H _ _ _. one ph H; eexists; reflexivity.
  - intros ph f xf tf y0 t0 a H _ _ _. one ph H; eexists; reflexivity.
  - intros ph f x u t a H _ _ _. one ph H; reflexivity.
  - intros ph f xf tf y0 t0 a H _ _ _. one ph H; reflexivity.
  - reflexivity.
  - reflexivity.
  - reflexivity.
  - reflexivity.
  - reflexivity.
  - intros; cbn; lia.
  - intros i j [].
  - cbn; lia.
  - cbn; intros H; lia.
Qed.
Lemma ramp_scales x0 d : scales_pos (ramp x0 d).
Proof. constructor; cbn; [intros s [<-|[]]; lra|intros s [<-|[]]; lra|intros s []|lra]. Qed.
Definition ramp_mp x0 d (K : nat) : mpo Rnum := Mpo (ramp x0 d) K (repeat 1%nat K) (demo_cf "LGR").
Lemma ramp_mpo x0 d K : (1 <= K)%nat -> mpo_ok (ramp_mp x0 d K).
Proof.
  intros HK. constructor; cbn [ramp_mp mp_cf mp_nseg mp_orders]; [apply demo_cf_ok; cbn; auto|apply repeat_length|exact HK|].
  intros p Hp. apply repeat_spec in Hp. lia.
Qed.
Definition straight (K : nat) : utraj := Utraj (fun i _ => 1 + INR i / INR K) (fun _ _ => 0) 0 1 (fun _ => 0).
Lemma ramp_straight K : (1 <= K)%nat -> exists z n, length z = nvars (ramp_mp 1 (fun _ => 1) K) /\ nlp_at (ramp_mp 1 (fun _ => 1) K) z (swing_p K) = Ok n /\ feasible n.
Proof.
  intros HK. assert (HKp : 0 < INR K) by (apply lt_0_INR; lia). set (mp := ramp_mp 1 (fun _ => 1) K).
  assert (I : input_ok mp (fun _ => None) (fun _ => None) (pack mp (fun _ => straight K)) (swing_p K)).
  { constructor; [apply ramp_mpo; exact HK|apply ramp_ok|apply ramp_scales|apply length_pack|cbn; unfold swing_p; rewrite repeat_length; lia]. }
  exists (pack mp (fun _ => straight K)).
  destruct (nlp_like mp _ _ _ _ (fun _ => straight K) I) as (rs & n & Er & En & Hlen & Hf & _).
  { intros ph Hph. exact (pack_traj mp (fun _ => straight K) ph (ok_shapes _ _ _ (ramp_ok _ _)) (ramp_scales _ _) Hph). }
  exists n. split; [rewrite length_pack; change (o_nph (mp_ocp mp)) with 1%nat; lia|]. split; [exact En|]. apply Hf.
  assert (rs = repeat [-1; 1] K) as -> by (pose proof (eq_trans (eq_sym Er) (swing_roots K)) as X; injection X as X; exact X).
  split; [|split].
  - intros ph Hph. cbn in Hph. assert (ph = 0)%nat as -> by lia. split; [|split; [|split; [|split]]].
    + intros i s Hi Hs. cbn in Hs. assert (s = 0)%nat as -> by lia. cbn. destruct (Nat.eqb_spec i 0) as [-> |Hn]; cbn; [nred; field; lra|]. split; exact Logic.I.
    + intros i c Hi Hs. cbn in Hs. assert (c = 0)%nat as -> by lia. cbn. split; cbn; lra.
    + split; cbn; lra.
    + split; cbn; lra.
    + intros i Hi. cbn in Hi. lia.
  - intros ph Hph. cbn in Hph. assert (ph = 0)%nat as -> by lia. split; [|split; [|split; [|split; [|split]]]].
    + intros i k j s c Ho Hs Hc. cbn in Hs. assert (s = 0)%nat as -> by lia.
      assert (Hk : (k < K)%nat) by (destruct Ho as (q & Eq & _); pose proof (nth_error_lt _ _ _ Eq) as X; cbn in X; rewrite repeat_length in X; exact X).
      pose proof (demo_line K k _ c Hk Hc) as L. cbn beta in L.
      assert (E : (y_x (straight K) (S k) 0 - y_x (straight K) k 0) / 2 = 1 / INR K / 2) by (unfold straight; cbv beta iota delta [y_x]; rewrite S_INR; field; lra).
      replace (seg_h (mp_cf mp) (width mp (swing_p K) 0) (straight K) k * _) with ((y_x (straight K) (S k) 0 - y_x (straight K) k 0) / 2).
      * eapply line_derive. exact L.
      * rewrite E. clear E. unfold seg_h. change (width mp (swing_p K) 0 k) with (width (swing_mp K) (swing_p K) 0 k). rewrite swing_width by exact Hk.
        match goal with |- _ = _ * ?d => change d with 1 end. cbn; nred; field; lra.
    + intros i k j c _ [].
    + intros H; discriminate H.
    + intros H; discriminate H.
    + intros H; discriminate H.
    + intros c [].
  - intros H. cbn in H. lia.
Qed.
Lemma ramp_curved K : (1 <= K)%nat -> forall (z : list R) n, length z = nvars (ramp_mp 0 (fun w => exp (- w)) K) -> nlp_at (ramp_mp 0 (fun w => exp (- w)) K) z (swing_p K) = Ok n -> ~ feasible n.
Proof.
  intros HK z n Hz En Hf. assert (HKp : 0 < INR K) by (apply lt_0_INR; lia). set (mp := ramp_mp 0 (fun w => exp (- w)) K) in *.
  assert (I : input_ok mp (fun _ => None) (fun _ => None) z (swing_p K)).
  { constructor; [apply ramp_mpo; exact HK|apply ramp_ok|apply ramp_scales|change (o_nph (mp_ocp mp)) with 1%nat; nred; lia|cbn; unfold swing_p; rewrite repeat_length; lia]. }
  destruct (nlp_like mp _ _ _ _ (user_traj mp z) I (fun ph _ => same_refl _ _)) as (rs & n' & Er & En' & Hlen & HF & _).
  assert (n' = n) as -> by (pose proof (eq_trans (eq_sym En') En) as X; injection X as X; exact X).
  assert (rs = repeat [-1; 1] K) as -> by (pose proof (eq_trans (eq_sym Er) (swing_roots K)) as X; injection X as X; exact X).
  apply HF in Hf. destruct Hf as (Hb & Hp & _). specialize (Hb 0%nat ltac:(cbn; lia)). specialize (Hp 0%nat ltac:(cbn; lia)).
  clear HF. set (y := user_traj mp z 0) in *. clearbody y. destruct Hb as (Hx & _ & Ht0 & Htf & _). destruct Hp as (Hd & _).
  assert (T0 : y_t0 y = 0) by (destruct Ht0 as [A B]; cbn in A, B; lra). assert (T1 : y_tf y = 1) by (destruct Htf as [A B]; cbn in A, B; lra).
  assert (Hnd : NoDup [-1; 1]) by (constructor; [intros [E|[]]; lra|constructor; [intros []|constructor]]).
  destruct (interp_exists [-1; 1] (fun j => y_x y j 0%nat) Hnd) as (c & Hc).
  assert (Hc' : seg_interp (mp_orders mp) 0 (nth 0 (repeat [-1; 1] K) []) (fun i => y_x y i 0%nat) c).
  { rewrite (nth_repeat_in (A := list R)) by lia. unfold seg_interp. rewrite offset_0. exact Hc. }
  pose proof (demo_line K 0 _ c HK Hc') as L. cbn beta in L.
  assert (D : forall j, (j <= 1)%nat -> (y_x y 1 0 - y_x y 0 0) / 2 = / INR K / 2 * exp (- y_x y j 0)).
  { intros j Hj. assert (Ho : owned (mp_orders mp) j 0 j).
    { exists 1%nat. split; [cbn [mp ramp_mp mp_orders]; destruct K; [lia|reflexivity]|]. split; [exact Hj|]. split; [left; reflexivity|]. rewrite offset_0. reflexivity. }
    pose proof (Hd j 0%nat j 0%nat c Ho ltac:(cbn; lia) Hc') as X. apply is_derive_unique in X. rewrite (line_Derive c _ _ _ L) in X. rewrite X. unfold seg_h. rewrite T0, T1.
    change (width mp (swing_p K) 0 0) with (width (swing_mp K) (swing_p K) 0 0). rewrite swing_width by exact HK.
    match goal with |- _ * ?d = _ => change d with (exp (- y_x y j 0)) end. cbn. nred. field. lra. }
  pose proof (D 0%nat ltac:(lia)) as D0. pose proof (D 1%nat ltac:(lia)) as D1. pose proof (Rinv_0_lt_compat _ HKp) as HI.
  assert (E : exp (- y_x y 0 0) = exp (- y_x y 1 0)) by (apply (Rmult_eq_reg_l (/ INR K / 2)); [congruence|lra]).
  apply exp_inv in E. pose proof (exp_pos (- y_x y 0 0)) as P. assert (0 < / INR K / 2 * exp (- y_x y 0 0)) by (apply Rmult_lt_0_compat; lra). lra.
Qed.
(** in curved coordinates nothing of the program is left: here it has no feasible point on any of these meshes *)
Lemma curved_thm K : (1 <= K)%nat -> exists (o o' : ocp Rnum) (phi phi' : R -> R),
  let mp := Mpo o K (repeat 1%nat K) (demo_cf "LGR") in let mp' := Mpo o' K (repeat 1%nat K) (demo_cf "LGR") in
  (forall z, length z = nvars mp -> input_ok mp (fun _ => None) (fun _ => None) z (swing_p K)) /\
  (forall z, length z = nvars mp' -> input_ok mp' (fun _ => None) (fun _ => None) z (swing_p K)) /\
  (forall w, is_derive phi w (phi' w)) /\ (forall w, 0 < phi' w) /\
  (exists d d', o = ramp (phi 0) d /\ o' = ramp 0 d' /\ forall w, phi' w * d' w = d (phi w)) /\
  (exists z n, length z = nvars mp /\ nlp_at mp z (swing_p K) = Ok n /\ feasible n) /\
  (forall (z : list R) n, length z = nvars mp' -> nlp_at mp' z (swing_p K) = Ok n -> ~ feasible n).
Proof.
  intros HK. exists (ramp 1 (fun _ => 1)), (ramp 0 (fun w => exp (- w))), exp, exp. intros mp mp'.
  assert (X : forall x0 d (z : list R), length z = nvars (ramp_mp x0 d K) -> input_ok (ramp_mp x0 d K) (fun _ => None) (fun _ => None) z (swing_p K)).
  { intros x0 d z Hz. constructor; [apply ramp_mpo; exact HK|apply ramp_ok|apply ramp_scales|change (o_nph (mp_ocp (ramp_mp x0 d K))) with 1%nat; nred; lia|cbn; unfold swing_p; rewrite repeat_length; lia]. }
  split; [exact (X _ _)|]. split; [exact (X _ _)|]. split; [intros w; apply is_derive_exp|]. split; [exact exp_pos|]. split.
  - exists (fun _ => 1), (fun w => exp (- w)). rewrite exp_0. split; [reflexivity|]. split; [reflexivity|]. intros w. rewrite <- exp_plus, Rplus_opp_r. apply exp_0.
  - split; [exact (ramp_straight K HK)|exact (ramp_curved K HK)].
Qed.
(** the best known motion of the cart, in the other coordinates *)
Lemma tilted_point cf K orders p : cfg_ok cf -> (1 <= K)%nat -> length orders = K -> (forall q, In q orders -> (4 <= q)%nat) ->
  widths_ok K 1 p -> cf_scheme cf = "LGR"%string ->
  exists (z' : list R) n', nlp_at (Mpo tilted K orders cf) z' p = Ok n' /\ feasible n' /\ n_f n' = 12.
Proof.
  intros Hcf HK Hlen Hq Hw Hs. assert (Hpos : forall q, In q orders -> (1 <= q)%nat) by (intros q Hi; apply Hq in Hi; lia).
  destruct (glide_point cf K orders p Hcf HK Hlen Hpos Hw 0 ltac:(lra) Hq) as (rs & z & n & _ & Hz & _ & En & Hf & HC). specialize (HC Hs).
  pose proof (glide_mpo cf K orders Hcf HK Hlen Hpos) as Hm. set (mp := Mpo glide K orders cf) in *. set (mp' := Mpo tilted K orders cf).
  assert (Hp : length p = (o_nph (mp_ocp mp) * mp_nseg mp)%nat) by (destruct Hw as [W _]; cbn; nred; lia).
  assert (I : input_ok mp glide_npath glide_nterm z p).
  { constructor; [exact Hm|exact glide_ok|exact glide_scales|change (o_nph (mp_ocp mp)) with 1%nat; nred; lia|exact Hp]. }
  destruct (coord_exists mp mp' tilt _ _ tilted_npath tilted_nterm p Hm glide_ok glide_scales tilted_ok tilted_scales Hp eq_refl eq_refl eq_refl tilt_ok tilted_coords) as [X _].
  destruct (X z I) as (z' & I' & S'). destruct (coord_thm mp mp' tilt _ _ _ _ z z' p I I' eq_refl eq_refl eq_refl tilt_ok tilted_coords S') as (m & n' & E1 & E2 & F & V).
  assert (m = n) as -> by (pose proof (eq_trans (eq_sym E1) En) as Y; injection Y as Y; exact Y).
  exists z', n'. split; [exact E2|]. split; [apply F; exact Hf|]. apply (eq_trans (eq_sym V)). apply (eq_trans HC). match goal with |- @eq _ ?a ?b => change (@eq R a b) end. ring.
Qed.
