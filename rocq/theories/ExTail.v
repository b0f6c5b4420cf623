(** Two phases in which the first decides about the start control of the second (examples for C81). *)
From Coq Require Import Reals Lia Lra Bool Arith String.
From Coquelicot Require Import Coquelicot.
From Coq Require Import List.
From Verif Require Import Num PyList Mat Poly Roots Colloc Ocp Transcribe Spec SpecOcp SpecHadapt SpecCoord SpecExact SpecTail NumR ListR PolyR CollocR CompR CollocThm MeshR BlockR DiscR NlpR OcpR NlpThm ScaleR CostR ConvexR TransR ExactR ExOcp ExNlp PhaseR TailR.
Import ListNotations.
Open Scope R_scope.

(** x' = u in both phases, u = 1 in the first, 0 <= u <= 1 in the second; the cost is the state at the end *)
Definition kick : ocp Rnum :=
  Ocp (N := Rnum) 1 1 0 2
    [fun _ u _ _ => Ok [nth 0 u 0]; fun _ u _ _ => Ok [nth 0 u 0]] [fun _ _ _ _ => Ok None; fun _ _ _ _ => Ok None]
    [fun _ _ _ _ _ => Ok (Some 0); fun xf _ _ _ _ => Ok (Some (nth 0 xf 0))]
    [fun _ _ _ _ => Ok (Some 0); fun _ _ _ _ => Ok (Some 0)]
    [fun _ _ _ _ _ => Ok None; fun _ _ _ _ _ => Ok None] [(0, 1)]%nat
    [1] [1] [] 1 [[0]; [1]] [[1]; [2]] [[1]; [1]] [[1]; [1]] [[0]; [1]] [[1]; [2]] [[]; []]
    [[Fin 0]; [Fin 0]] [[PInf]; [PInf]] [[Fin 1]; [Fin 0]] [[Fin 1]; [Fin 1]] [[]; []] [[]; []]
    [[Fin 0]; [Fin 1]] [[Fin 0]; [Fin 1]] [[Fin 1]; [Fin 2]] [[Fin 1]; [Fin 2]] [[Fin 0]] [[Fin 0]]
    [false; false] [Fin (-15); Fin (-15)] [Fin 15; Fin 15] [false; false] [false; false].
Lemma kick_ok : ocp_ok kick (fun _ => None) (fun _ => None).
Proof.
  constructor.
  { constructor; cbn; auto; try (apply shaped2; reflexivity).
    - split; [reflexivity|]. intros _. split; [reflexivity|]. intros r [<-|[]]; reflexivity.
    - split; [reflexivity|]. intros _. split; [reflexivity|]. intros r [<-|[]]; reflexivity.
    - intros [|[|i]] [|j] Hi Hj; try lia; cbn; auto; lra.
    - intros [|[|i]] [|j] Hi Hj; try lia; cbn; auto; lra.
    - intros i j Hi Hj; lia.
    - intros [|[|i]] [|j] Hi Hj; try lia; cbn; auto; lra.
    - intros [|[|i]] [|j] Hi Hj; try lia; cbn; auto; lra.
    - intros [|i] [|j] Hi Hj; try lia; cbn; auto; lra. }
  - cbn; lia.
  - intros ph f x u t a H _ _ _. two ph H; eexists; split; reflexivity.
  - intros ph f x u t a H _ _ _. two ph H; eexists; reflexivity.
  - intros ph f xf tf x0 t0 a H _ _ _. two ph H; eexists; reflexivity.
  - intros ph f x u t a H _ _ _. two ph H; reflexivity.
  - intros ph f xf tf x0 t0 a H _ _ _. two ph H; reflexivity.
  - reflexivity.
  - reflexivity.
  - reflexivity.
  - reflexivity.
  - reflexivity.
  - intros; cbn; lia.
  - intros i j [H|[]]. injection H as <- <-. cbn. lia.
  - cbn. lia.
  - intros _ H. discriminate H.
Qed.
Lemma kick_scales : scales_pos kick.
Proof. constructor; cbn; [intros s [<-|[]]; lra|intros s [<-|[]]; lra|intros s []|lra]. Qed.
Definition kick_mp : mpo Rnum := Mpo kick 1 (repeat 1%nat 1) (demo_cf "LGR").
Lemma kick_mpo : mpo_ok kick_mp.
Proof. constructor; cbn [kick_mp mp_cf mp_nseg mp_orders]; [apply demo_cf_ok; cbn; auto|reflexivity|lia|]. intros p [<-|[]]; lia. Qed.
Lemma kick_roots (rs : list (list R)) : mapM (c_roots (demo_cf "LGR")) (repeat 1%nat 1) = Ok rs -> rs = [[-1; 1]].
Proof. intros E. pose proof (eq_trans (eq_sym E) (demo_roots 1 0 [1] true false [0] [0] 1)) as X. injection X as X. exact X. Qed.
(** one step from one node to the other *)
Lemma step o w ph y : o_nx o = 1%nat -> (forall j t, nth 0 (dyn_val o ph y j t) 0 = y_u y j 0) -> w 0%nat = 1 ->
  dynamics_ok (Mpo o 1 (repeat 1%nat 1) (demo_cf "LGR")) [[-1; 1]] w ph y <-> (forall j, (j <= 1)%nat -> y_x y 1 0 - y_x y 0 0 = (y_tf y - y_t0 y) * y_u y j 0).
Proof.
  intros Hx Hd Hw. split.
  - intros H j Hj. assert (Hnd : NoDup [-1; 1]) by (constructor; [intros [E|[]]; lra|constructor; [intros []|constructor]]).
    destruct (interp_exists [-1; 1] (fun j => y_x y j 0%nat) Hnd) as (c & Hc).
    assert (Ho : owned (repeat 1%nat 1) j 0 j) by (exists 1%nat; cbn; repeat split; auto).
    pose proof (demo_line 1 0 (fun i => y_x y i 0%nat) c (le_n 1) Hc) as L. cbn beta in L.
    pose proof (H j 0%nat j 0%nat c Ho ltac:(cbn; rewrite Hx; lia) Hc) as X. apply is_derive_unique in X. rewrite (line_Derive c _ _ _ L) in X. cbn [mp_ocp] in X. rewrite Hd in X.
    unfold seg_h in X. rewrite Hw in X. cbn in X. nred. cbn in X. lra.
  - intros H i k j s c Ho Hs Hc. cbn [mp_ocp] in Hs. rewrite Hx in Hs. assert (s = 0)%nat as -> by lia. destruct Ho as (q & Eq & Hj & _ & ->). assert (k = 0)%nat as -> by (apply MeshR.nth_error_lt in Eq; cbn in Eq; lia). cbn in Eq. injection Eq as <-.
    pose proof (demo_line 1 0 (fun i => y_x y i 0%nat) c (le_n 1) Hc) as L. cbn beta in L. cbn [mp_ocp]. rewrite Hd.
    replace (seg_h _ w y 0 * _) with ((y_x y 1 0 - y_x y 0 0) / 2); [eapply line_derive; exact L|].
    rewrite (H (offset (repeat 1%nat 1) 0 + j)%nat) by (cbn; lia). unfold seg_h. rewrite Hw. cbn. nred. cbn. field.
Qed.
Lemma no_run mp rs w ph y : (forall k j, run_at mp rs w ph y k j = 0) -> node_cost mp rs w ph y = mayer_val (mp_ocp mp) ph y (total_nodes (mp_orders mp) - 1).
Proof.
  intros H. assert (Z : forall n f, (forall i, f i = 0) -> Rsum n f = 0) by (intros n f Hf; induction n as [|n IH]; [reflexivity|cbn [Rsum]; rewrite IH, Hf; ring]).
  unfold node_cost. rewrite Z; [ring|]. intros k. unfold seg_cost. rewrite Z; [ring|]. intros j. rewrite H. ring.
Qed.
(** moving at speed [u] for one unit of time *)
Definition moving (x t u : R) : utraj := Utraj (fun i _ => x + INR i * u) (fun _ _ => u) t (t + 1) (fun _ => 0).
Lemma kick_in z : length z = (2 * nvars kick_mp)%nat -> input_ok kick_mp (fun _ => None) (fun _ => None) z [1; 1].
Proof. intros Hz. constructor; [exact kick_mpo|exact kick_ok|exact kick_scales|exact Hz|reflexivity]. Qed.
Lemma kick_value (z : list R) n : length z = (2 * nvars kick_mp)%nat -> nlp_at kick_mp z [1; 1] = Ok n -> feasible n -> n_f n = 2.
Proof.
  intros Hz En Hf. destruct (nlp_like kick_mp _ _ z [1; 1] (user_traj kick_mp z) (kick_in z Hz) (fun _ _ => same_refl _ _)) as (rs & n' & Er & En' & _ & HF & HC).
  assert (n' = n) as -> by (pose proof (eq_trans (eq_sym En') En) as X; injection X as X; exact X). apply kick_roots in Er. subst rs.
  apply HF in Hf. destruct Hf as (Hb & Hp & Hl). change (o_nph (mp_ocp kick_mp)) with 2%nat in *. cbn [Rsum] in HC.
  rewrite !no_run in HC by (intros k j; reflexivity).
  set (y0 := user_traj kick_mp z 0) in *. set (y1 := user_traj kick_mp z 1) in *.
  assert (D0 := proj1 (Hp 0%nat ltac:(lia))). assert (D1 := proj1 (Hp 1%nat ltac:(lia))). fold y0 in D0. fold y1 in D1.
  apply (proj1 (step kick (width kick_mp [1; 1] 0) 0 y0 eq_refl (fun _ _ => eq_refl) eq_refl)) with (j := 0%nat) in D0; [|lia].
  apply (proj1 (step kick (width kick_mp [1; 1] 1) 1 y1 eq_refl (fun _ _ => eq_refl) eq_refl)) with (j := 0%nat) in D1; [|lia].
  destruct (Hb 0%nat ltac:(lia)) as (X0 & U0 & S0 & F0 & _). destruct (Hb 1%nat ltac:(lia)) as (_ & _ & S1 & F1 & _). destruct (Hl ltac:(cbn; lia) 0%nat 0%nat 1%nat eq_refl) as (L1 & L2 & _).
  specialize (X0 0%nat 0%nat ltac:(cbn; lia) ltac:(cbn; lia)). specialize (L1 0%nat ltac:(cbn; lia)). specialize (L2 0%nat ltac:(cbn; lia)).
  pose proof (U0 1%nat 0%nat ltac:(cbn; lia) ltac:(cbn; lia)) as U1. specialize (U0 0%nat 0%nat ltac:(cbn; lia) ltac:(cbn; lia)).
  fold y0 y1 in L1, L2. fold y0 in X0, U0, U1, S0, F0. fold y1 in S1, F1.
  assert (M0 : mayer_val (mp_ocp kick_mp) 0 y0 (total_nodes (mp_orders kick_mp) - 1) = 0) by reflexivity.
  assert (M1 : mayer_val (mp_ocp kick_mp) 1 y1 (total_nodes (mp_orders kick_mp) - 1) = y_x y1 1 0) by reflexivity.
  rewrite M0, M1 in HC. clearbody y0 y1. clear Hb Hp Hl HF En En' M0 M1.
  destruct L1 as [L1 L1']. destruct U0 as [U0 U0']. destruct U1 as [U1 U1']. destruct S0 as [S0 S0']. destruct F0 as [F0 F0']. destruct S1 as [S1 S1']. destruct F1 as [F1 F1'].
  cbn in X0, L1, L1', L2, U0, U0', U1, U1', S0, S0', F0, F0', S1, S1', F1, F1'. nred. rewrite HC. clear HC.
  assert (E0 : y_t0 y0 = 0) by lra. assert (E1 : y_tf y0 = 1) by lra. assert (E2 : y_t0 y1 = 1) by lra. assert (E3 : y_tf y1 = 2) by lra. assert (E4 : y_u y0 0 0 = 1) by lra. assert (E5 : y_u y1 0 0 = 1) by lra.
  rewrite E0, E1, E4 in D0. rewrite E2, E3, E5 in D1. lra.
Qed.
Ltac quiet := (* the conditions that these problems do not have *)
  split; [|split; [intros i k j c Ho Hc; cbn in Hc; destruct Hc|split; [intros H; discriminate H|split; [intros H; discriminate H|split; [intros H; discriminate H|intros c Hc; cbn in Hc; destruct Hc]]]]].
Lemma kick_best : exists z, length z = (2 * nvars kick_mp)%nat /\ best kick_mp [1; 1] z /\
  same_traj kick_mp (user_traj kick_mp z 1) (moving 1 1 1).
Proof.
  set (ys := fun ph => moving (INR ph) (INR ph) 1). set (z := pack kick_mp ys).
  assert (Hz : length z = (2 * nvars kick_mp)%nat) by (unfold z; rewrite length_pack; reflexivity).
  assert (HS : forall ph, (ph < 2)%nat -> same_traj kick_mp (user_traj kick_mp z ph) (ys ph)).
  { intros ph Hph. apply (pack_traj kick_mp ys ph (ok_shapes _ _ _ kick_ok) kick_scales). exact Hph. }
  destruct (nlp_like kick_mp _ _ z [1; 1] ys (kick_in z Hz) HS) as (rs & n & Er & En & _ & HF & _). apply kick_roots in Er. subst rs.
  exists z. split; [exact Hz|]. split; [|exact (HS 1%nat ltac:(lia))].
  assert (Hf : feasible n).
  { apply HF. split; [|split].
    - intros [|[|ph]] Hph; [| |cbn in Hph; lia]; (split; [|split; [|split; [|split]]]).
      + intros i [|s] Hi Hs; [|cbn in Hs; lia]. cbn. destruct i as [|[|i]]; [cbn; ring| |cbn in Hi; lia]. cbn. split; [cbn; lra|exact I].
      + intros i [|c] Hi Hc; [|cbn in Hc; lia]. split; cbn; lra.
      + split; cbn; lra.
      + split; cbn; lra.
      + intros i Hi. cbn in Hi. lia.
      + intros i [|s] Hi Hs; [|cbn in Hs; lia]. cbn. pose proof (pos_INR i). split; [cbn; lra|exact I].
      + intros i [|c] Hi Hc; [|cbn in Hc; lia]. split; cbn; lra.
      + split; cbn; lra.
      + split; cbn; lra.
      + intros i Hi. cbn in Hi. lia.
    - intros [|[|ph]] Hph; [| |cbn in Hph; lia]; quiet.
      + apply (proj2 (step kick (width kick_mp [1; 1] 0) 0 (ys 0%nat) eq_refl (fun _ _ => eq_refl) eq_refl)). intros j Hj. cbn. ring.
      + apply (proj2 (step kick (width kick_mp [1; 1] 1) 1 (ys 1%nat) eq_refl (fun _ _ => eq_refl) eq_refl)). intros j Hj. cbn. ring.
    - intros _ [|k] i j H; cbn in H; [|destruct k; discriminate H]. injection H as <- <-. split; [|split].
      + intros [|s] Hs; [|cbn in Hs; lia]. split; cbn; lra.
      + intros [|c] Hc; [|cbn in Hc; lia]. reflexivity.
      + cbn. ring. }
  exists n. split; [exact En|]. split; [exact Hf|]. intros z1 n1 L1 E1 F1. pose proof (kick_value z n Hz En Hf) as V. pose proof (kick_value z1 n1 (eq_trans L1 Hz) E1 F1) as V1.
  nred. rewrite V, V1. apply Rle_refl.
Qed.
(** the second phase alone does better *)
Lemma kick_alone : exists z z1, length z = (2 * nvars kick_mp)%nat /\ best kick_mp [1; 1] z /\ length z1 = nvars kick_mp /\
  same_traj (phase_mpo kick_mp z 1) (user_traj (phase_mpo kick_mp z 1) z1 0) (user_traj kick_mp z 1) /\ ~ best (phase_mpo kick_mp z 1) (phase_widths kick_mp [1; 1] 1) z1.
Proof.
  destruct kick_best as (z & Hz & Hb & HS). destruct (tail_thm kick_mp _ _ z [1; 1] 1 (kick_in z Hz) ltac:(cbn; lia) Hb) as (z1 & n1 & L1 & S1 & En1 & F1 & _).
  exists z, z1. split; [exact Hz|]. split; [exact Hb|]. split; [exact L1|]. split; [exact S1|].
  pose proof (tail_input kick_mp _ _ z [1; 1] 1 (kick_in z Hz) ltac:(cbn; lia)) as HI.
  set (mp1 := phase_mpo kick_mp z 1) in *. set (p1 := phase_widths kick_mp [1; 1] 1) in *.
  assert (HX : y_x (user_traj kick_mp z 1) 0 0 = 1) by (rewrite (proj1 HS 0%nat 0%nat) by (cbn; lia); cbn; ring).
  assert (HX1 : y_x (user_traj kick_mp z 1) 1 0 = 2) by (rewrite (proj1 HS 1%nat 0%nat) by (cbn; lia); cbn; ring).
  assert (HT : y_t0 (user_traj kick_mp z 1) = 1) by exact (proj1 (proj2 (proj2 HS))).
  assert (E0 : nth 0 (nth 0 (o_x00 (mp_ocp mp1)) []) 0 = 1) by exact HX.
  assert (ET : o_lbt0 (mp_ocp mp1) = [[Fin 1]] /\ o_ubt0 (mp_ocp mp1) = [[Fin 1]]).
  { split; (etransitivity; [|apply (f_equal (fun t : R => [[Fin t]]) HT)]; reflexivity). }
  assert (V1 : n_f n1 = 2).
  { destruct (nlp_like mp1 _ _ z1 p1 (fun _ => user_traj kick_mp z 1) (HI z1 L1)) as (rs & n & _ & En & _ & _ & HC).
    { intros ph Hph. change (o_nph (mp_ocp mp1)) with 1%nat in Hph. assert (ph = 0)%nat as -> by lia. exact S1. }
    assert (n = n1) as -> by (pose proof (eq_trans (eq_sym En) En1) as X; injection X as X; exact X).
    change (o_nph (mp_ocp mp1)) with 1%nat in HC. cbn [Rsum] in HC. rewrite no_run in HC by (intros k j; reflexivity). nred. rewrite HC, Rplus_0_l. exact HX1. }
  intros (n & En & _ & Hm). assert (n = n1) as -> by (pose proof (eq_trans (eq_sym En) En1) as X; injection X as X; exact X).
  set (z2 := pack mp1 (fun _ => moving 1 1 0)).
  assert (L2 : length z2 = nvars kick_mp) by (unfold z2; rewrite length_pack; reflexivity).
  destruct (nlp_like mp1 _ _ z2 p1 (fun _ => moving 1 1 0) (HI z2 L2)) as (rs & n2 & Er & En2 & _ & HF & HC).
  { intros ph Hph. apply (pack_traj mp1 (fun _ => moving 1 1 0) ph (ok_shapes _ _ _ (in_ocp _ _ _ _ _ (HI z2 L2))) (in_sc _ _ _ _ _ (HI z2 L2)) Hph). }
  apply kick_roots in Er. subst rs.
  assert (V2 : n_f n2 = 1).
  { change (o_nph (mp_ocp mp1)) with 1%nat in HC. cbn [Rsum] in HC. rewrite no_run in HC by (intros k j; reflexivity). nred. rewrite HC, Rplus_0_l.
    transitivity (y_x (moving 1 1 0) 1 0); [reflexivity|]. cbn. ring. }
  assert (F2 : feasible n2).
  { apply HF. change (o_nph (mp_ocp mp1)) with 1%nat. split; [|split; [|intros H; cbn in H; lia]].
    - intros ph Hph. assert (ph = 0)%nat as -> by lia. split; [|split; [|split; [|split]]].
      + intros i [|s] Hi Hs; [|cbn in Hs; lia]. destruct i as [|i]; cbn [Nat.eqb andb]; [rewrite E0; cbn; ring|].
        unfold bnd. split; [cbn -[INR]; lra|exact I].
      + intros i [|c] Hi Hc; [|cbn in Hc; lia]. split; cbn; lra.
      + unfold bnd. rewrite (proj1 ET), (proj2 ET). split; cbn; lra.
      + split; cbn; lra.
      + intros i Hi. cbn in Hi. lia.
    - intros ph Hph. assert (ph = 0)%nat as -> by lia. quiet.
      apply (proj2 (step (mp_ocp mp1) (width mp1 p1 0) 0 (moving 1 1 0) eq_refl (fun _ _ => eq_refl) eq_refl)). intros j Hj. cbn. ring. }
  pose proof (Hm z2 n2 (eq_trans L2 (eq_sym L1)) En2 F2) as Q. clear - Q V1 V2. nred. lra.
Qed.
