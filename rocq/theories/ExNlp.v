(** Counterexamples for the nonlinear program (C16, C18-C21, C42). *)
From Coq Require Import Reals Lia Lra Bool Arith String.
From Coquelicot Require Import Coquelicot.
From Coq Require Import List.
From Verif Require Import Num PyList Mat Poly Roots Colloc Ocp Transcribe Spec SpecOcp NumR ListR PolyR CollocR CompR CollocThm JacobiR MeshR BlockR DiscR NlpR OcpR NlpThm GuessR CostR ScaleR NlpMain ExOcp.
Import ListNotations.
Open Scope R_scope.

Ltac sing := let s := fresh in let H := fresh in intros s [H|[]]; subst s; lra.

(** ** C16: unit running cost over unit time on two segments of order 1 costs 3/4 *)
Lemma objective_wrong : exists mp npath nterm z p rs n C,
  input_ok mp npath nterm z p /\ mapM (c_roots (mp_cf mp)) (mp_orders mp) = Ok rs /\ nlp_at mp z p = Ok n /\ feasible n /\
  o_nph (mp_ocp mp) = 1%nat /\ cost_interp mp rs (width mp p 0) 0 (user_traj mp z 0) C /\
  phase_cost mp (width mp p 0) 0 (user_traj mp z 0) C = 1 /\ n_f n = 3 / 4.
Proof.
  set (mp := demo_mp 1 1 [1] false false [0] [0] 2).
  assert (Hpos : forall s, In s [1] -> 0 < s) by sing.
  destruct (demo_z 1 1 [1] false false [0] [0] eq_refl eq_refl eq_refl Hpos (le_n 1) 2 ltac:(lia) (fun _ _ => 0) 1 [1 / 2; 1 / 2] ltac:(lra) eq_refl)
    as (z & n & Hin & Hn & Hs & Hf & Hc). fold mp in Hin, Hn, Hs, Hf, Hc.
  set (y := rest (fun _ _ => 0) 0 1) in *. set (rs := repeat [-1; 1] 2) in *. set (w := width mp [1 / 2; 1 / 2] 0) in *.
  assert (Hlen : forall k p, nth_error (mp_orders mp) k = Some p -> length (nth k rs []) = S p).
  { intros [|[|k]] p H; cbn in H; [injection H as <-; reflexivity|injection H as <-; reflexivity|destruct k; discriminate]. }
  assert (HC : cost_interp mp rs w 0 y (fun _ => [1])).
  { intros [|[|k]] Hk; [| |cbn in Hk; lia]; (split; [cbn; lia|]; intros [|[|j]] Hj; [| |cbn in Hj; lia]; cbn; ring). }
  assert (HB : start_basis mp rs (fun _ => [1 / 2; - (1 / 2)])).
  { intros [|[|k]] Hk; [| |cbn in Hk; lia]; (split; [cbn; lia|]; intros [|[|j]] Hj; [| |cbn in Hj; lia]; cbn; field). }
  assert (I1 : RInt (peval [1]) (-1) 1 = 2).
  { rewrite RInt_peval. cbn. field. }
  assert (I2 : RInt (peval [1 / 2; - (1 / 2)]) (-1) 1 = 1).
  { rewrite RInt_peval. cbn. field. }
  assert (Hpc : phase_cost mp w 0 y (fun _ => [1]) = 1).
  { unfold phase_cost. cbn [mp demo_mp mp_orders repeat length Rsum mp_cf demo_cf cf_tau0 cf_tau1]. rewrite I1. unfold seg_h, w, width. cbn. field. }
  exists mp, (fun _ => None), (fun _ => None), z, [1 / 2; 1 / 2], rs, n, (fun _ => [1]).
  split; [exact Hin|]. split; [exact (demo_roots 1 1 [1] false false [0] [0] 2)|]. split; [exact Hn|].
  split; [apply Hf; split; intros H; cbn in H; discriminate|]. split; [reflexivity|].
  split; [apply (cost_interp_congr mp rs w 0 Hlen y); auto; apply same_sym; auto|].
  split; [fold w; rewrite (phase_cost_eq mp w 0 _ y); auto|].
  rewrite (Hc _ _ HC HB), Hpc. unfold start_cost. cbn [mp demo_mp mp_orders repeat length Nat.sub Rsum mp_cf demo_cf cf_tau0 cf_tau1]. rewrite I2.
  unfold seg_h, w, width, run_at. cbn. field.
Qed.

(** ** C18: with control slope bounds the scales matter *)
Lemma scale_wrong : exists mp npath nterm z p sx su sa st z1 n n1,
  let mp1 := with_ocp mp (rescale (mp_ocp mp) sx su sa st) in
  input_ok mp npath nterm z p /\ scales_for (mp_ocp mp) sx su sa st /\ length z1 = length z /\
  (forall ph, (ph < o_nph (mp_ocp mp))%nat -> same_traj mp (user_traj mp z ph) (user_traj mp1 z1 ph)) /\
  nlp_at mp z p = Ok n /\ nlp_at mp1 z1 p = Ok n1 /\ feasible n /\ ~ feasible n1.
Proof.
  assert (P1 : forall s, In s [1] -> 0 < s) by sing. assert (P2 : forall s, In s [40] -> 0 < s) by sing.
  set (u := fun (i : nat) (c : nat) => INR i).
  destruct (demo_z 1 0 [1] true false [0] [0] eq_refl eq_refl eq_refl P1 (le_n 1) 1 (le_n 1) u 1 [1] ltac:(lra) eq_refl)
    as (z & n & Hin & Hn & Hs & Hf & _).
  destruct (demo_z 1 0 [40] true false [0] [0] eq_refl eq_refl eq_refl P2 (le_n 1) 1 (le_n 1) u 1 [1] ltac:(lra) eq_refl)
    as (z1 & n1 & Hin1 & Hn1 & Hs1 & Hf1 & _).
  set (mp := demo_mp 1 0 [1] true false [0] [0] 1) in *. set (mp1 := demo_mp 1 0 [40] true false [0] [0] 1) in *.
  exists mp, (fun _ => None), (fun _ => None), z, [1], [1], [40], [], 1, z1, n, n1. cbv zeta.
  change (with_ocp mp (rescale (mp_ocp mp) [1] [40] [] 1)) with mp1.
  split; [exact Hin|]. split; [constructor; try reflexivity; auto; [intros s []|lra]|].
  split; [rewrite (in_z _ _ _ _ _ Hin), (in_z _ _ _ _ _ Hin1); reflexivity|].
  split. { intros ph Hph. cbn in Hph. assert (ph = 0)%nat as -> by lia. eapply same_trans; [exact Hs|]. apply same_sym. exact Hs1. }
  split; [exact Hn|]. split; [exact Hn1|]. split.
  - apply Hf. split; [|intros H; cbn in H; discriminate].
    intros _ i k j q c Ho Hq Hc. pose proof (owned_seg mp i k j Ho) as Hk. cbn in Hk. assert (k = 0)%nat as -> by lia.
    cbn in Hq. assert (q = 0)%nat as -> by lia.
    pose proof (demo_line 1 0 _ c ltac:(lia) Hc) as Hl. rewrite (line_Derive _ _ _ _ Hl). unfold u, within. cbn. lra.
  - rewrite Hf1. intros [H _]. specialize (H eq_refl 0%nat 0%nat 0%nat 0%nat [1 / 2; 1 / 2]).
    assert (Ho : owned (mp_orders mp1) 0 0 0) by (exists 1%nat; cbn; repeat split; auto).
    assert (Hi : seg_interp (mp_orders mp1) 0 (nth 0 (repeat [-1; 1] 1) []) (fun i => y_u (rest u 0 1) i 0) [1 / 2; 1 / 2]).
    { split; [cbn; lia|]. intros [|[|j]] Hj; [| |cbn in Hj; lia]; cbn; field. }
    specialize (H Ho ltac:(cbn; lia) Hi). rewrite (line_Derive _ (1 / 2) (1 / 2)) in H by (intros; cbn; field).
    unfold within in H. cbn in H. lra.
Qed.

(** ** C19 *)
Lemma slope_wrong : exists mp npath nterm z p rs n,
  input_ok mp npath nterm z p /\ mapM (c_roots (mp_cf mp)) (mp_orders mp) = Ok rs /\ nlp_at mp z p = Ok n /\ feasible n /\
  nth 0 (o_diff_u (mp_ocp mp)) false = true /\ o_scale_u (mp_ocp mp) = [1] /\
  nondegenerate mp (width mp p 0) (user_traj mp z 0) /\
  ~ slope_time_ok mp rs (width mp p 0) 0 (user_traj mp z 0).
Proof.
  assert (P1 : forall s, In s [1] -> 0 < s) by sing.
  set (u := fun (i : nat) (c : nat) => 20 * INR i).
  destruct (demo_z 1 0 [1] true false [0] [0] eq_refl eq_refl eq_refl P1 (le_n 1) 1 (le_n 1) u 1 [1] ltac:(lra) eq_refl)
    as (z & n & Hin & Hn & Hs & Hf & _).
  set (mp := demo_mp 1 0 [1] true false [0] [0] 1) in *.
  pose proof Hs as (_ & Hu & H0 & H1 & _). change (y_t0 (user_traj mp z 0) = 0) in H0. change (y_tf (user_traj mp z 0) = 1) in H1.
  exists mp, (fun _ => None), (fun _ => None), z, [1], (repeat [-1; 1] 1), n.
  split; [exact Hin|]. split; [exact (demo_roots 1 0 [1] true false [0] [0] 1)|]. split; [exact Hn|]. split.
  { apply Hf. split; [|intros H; cbn in H; discriminate].
    intros _ i k j q c Ho Hq Hc. pose proof (owned_seg mp i k j Ho) as Hk. cbn in Hk. assert (k = 0)%nat as -> by lia.
    cbn in Hq. assert (q = 0)%nat as -> by lia.
    pose proof (demo_line 1 0 _ c ltac:(lia) Hc) as Hl. rewrite (line_Derive _ _ _ _ Hl). unfold u, within. cbn. lra. }
  split; [reflexivity|]. split; [reflexivity|]. split.
  { split; [rewrite H0, H1; lra|]. intros k Hk. cbn in Hk. assert (k = 0)%nat as -> by lia. unfold width. cbn. lra. }
  intros H. specialize (H 0%nat 0%nat 0%nat 0%nat [0; 20]).
  assert (Ho : owned (mp_orders mp) 0 0 0) by (exists 1%nat; cbn; repeat split; auto).
  assert (Hi : time_interp mp (repeat [-1; 1] 1) (width mp [1] 0) (user_traj mp z 0) 0 (fun i => y_u (user_traj mp z 0) i 0) [0; 20]).
  { split; [cbn; lia|]. intros j Hj. rewrite map_length in Hj. cbn [repeat nth length] in Hj.
    rewrite (Hu (offset (mp_orders mp) 0 + j)%nat 0%nat) by (cbn; lia).
    destruct j as [|[|j]]; [| |lia]; unfold node_time; cbn [map repeat nth]; rewrite H0, H1; unfold width, u; cbn; nred; field. }
  specialize (H Ho ltac:(cbn; lia) Hi). rewrite (line_Derive _ 0 20) in H by (intros; cbn; ring).
  unfold within in H. cbn in H. lra.
Qed.
Lemma ducont_wrong : exists mp npath nterm z p rs n,
  input_ok mp npath nterm z p /\ mapM (c_roots (mp_cf mp)) (mp_orders mp) = Ok rs /\ nlp_at mp z p = Ok n /\ feasible n /\
  nth 0 (o_ducont (mp_ocp mp)) false = true /\ Rsum (mp_nseg mp) (width mp p 0) = 1 /\
  nondegenerate mp (width mp p 0) (user_traj mp z 0) /\
  ~ ducont_time_ok mp rs (width mp p 0) (user_traj mp z 0).
Proof.
  assert (P1 : forall s, In s [1] -> 0 < s) by sing.
  set (u := fun (i : nat) (c : nat) => INR i).
  destruct (demo_z 1 0 [1] false true [0] [0] eq_refl eq_refl eq_refl P1 (le_n 1) 2 ltac:(lia) u 1 [1 / 4; 3 / 4] ltac:(lra) eq_refl)
    as (z & n & Hin & Hn & Hs & Hf & _).
  set (mp := demo_mp 1 0 [1] false true [0] [0] 2) in *.
  pose proof Hs as (_ & Hu & H0 & H1 & _). change (y_t0 (user_traj mp z 0) = 0) in H0. change (y_tf (user_traj mp z 0) = 1) in H1.
  exists mp, (fun _ => None), (fun _ => None), z, [1 / 4; 3 / 4], (repeat [-1; 1] 2), n.
  split; [exact Hin|]. split; [exact (demo_roots 1 0 [1] false true [0] [0] 2)|]. split; [exact Hn|]. split.
  { apply Hf. split; [intros H; cbn in H; discriminate|].
    intros _ k q c c' Hk Hq Hc Hc'. cbn in Hk. assert (k = 0)%nat as -> by lia. cbn in Hq. assert (q = 0)%nat as -> by lia.
    pose proof (demo_line 2 0 _ c ltac:(lia) Hc) as Hl. pose proof (demo_line 2 1 _ c' ltac:(lia) Hc') as Hl'.
    rewrite (line_Derive _ _ _ _ Hl), (line_Derive _ _ _ _ Hl'). unfold u. cbn. field. }
  split; [reflexivity|]. split; [unfold width; cbn; field|]. split.
  { split; [rewrite H0, H1; lra|]. intros [|[|k]] Hk; unfold width; cbn; [lra|lra|cbn in Hk; lia]. }
  intros H. specialize (H 0%nat 0%nat [0; 4] [2 / 3; 4 / 3]).
  assert (Hy : forall i, (i < 3)%nat -> y_u (user_traj mp z 0) i 0 = INR i) by (intros i Hi; apply (Hu i 0%nat); cbn; lia).
  assert (Hi : time_interp mp (repeat [-1; 1] 2) (width mp [1 / 4; 3 / 4] 0) (user_traj mp z 0) 0 (fun i => y_u (user_traj mp z 0) i 0) [0; 4]).
  { split; [cbn; lia|]. intros j Hj. rewrite map_length in Hj. cbn [repeat nth length] in Hj.
    rewrite Hy by (cbn; lia).
    destruct j as [|[|j]]; [| |lia]; unfold node_time; cbn [map repeat nth]; rewrite H0, H1; unfold width, u; cbn; nred; field. }
  assert (Hi' : time_interp mp (repeat [-1; 1] 2) (width mp [1 / 4; 3 / 4] 0) (user_traj mp z 0) 1 (fun i => y_u (user_traj mp z 0) i 0) [2 / 3; 4 / 3]).
  { split; [cbn; lia|]. intros j Hj. rewrite map_length in Hj. cbn [repeat nth length] in Hj.
    rewrite Hy by (cbn; lia).
    destruct j as [|[|j]]; [| |lia]; unfold node_time; cbn [map repeat nth]; rewrite H0, H1; unfold width, u; cbn; nred; field. }
  specialize (H ltac:(cbn; lia) ltac:(cbn; lia) Hi Hi').
  rewrite (line_Derive _ 0 4) in H by (intros; cbn; ring). rewrite (line_Derive _ (2 / 3) (4 / 3)) in H by (intros; cbn; field).
  lra.
Qed.

(** ** C20: two controls *)
Lemma guess_wrong : exists mp z, mpo_ok mp /\ validate (mp_ocp mp) = Ok tt /\ scales_pos (mp_ocp mp) /\ guess_times_differ (mp_ocp mp) /\
  initialize_solution mp = Ok z /\
  exists i c, (i < total_nodes (mp_orders mp))%nat /\ (c < o_nu (mp_ocp mp))%nat /\
    y_u (user_traj mp z 0) i c <>
    line (total_nodes (mp_orders mp)) (nth c (nth 0 (o_u00 (mp_ocp mp)) []) 0) (nth c (nth 0 (o_uf0 (mp_ocp mp)) []) 0) i.
Proof.
  assert (P1 : forall s, In s [1; 1] -> 0 < s) by (intros s [<-|[<-|[]]]; lra).
  set (mp := demo_mp 2 0 [1; 1] false false [0; 0] [1; 0] 1).
  assert (Hmp : mpo_ok mp) by (apply demo_mp_ok; auto).
  assert (Hsh : shapes_ok (mp_ocp mp)) by (apply demo_shapes; auto).
  assert (Hsc : scales_pos (mp_ocp mp)) by (apply demo_scales; auto).
  assert (Hd : guess_times_differ (mp_ocp mp)).
  { intros ph Hph. cbn in Hph. assert (ph = 0)%nat as -> by lia. cbn. lra. }
  destruct (initial_guess mp Hmp Hsh) as (z & E & _ & Hz). destruct (Hz 0%nat ltac:(cbn; lia)) as (_ & Hu & _).
  exists mp, z. split; [exact Hmp|]. split; [apply demo_validates; auto|]. split; [exact Hsc|]. split; [exact Hd|]. split; [exact E|].
  exists 1%nat, 0%nat. split; [cbn; lia|]. split; [cbn; lia|].
  specialize (Hu 0%nat 1%nat ltac:(cbn; lia) ltac:(cbn; lia) Hd (sp_t _ Hsc)).
  unfold user_traj. cbn [y_u]. cbn in Hu. unfold line in *. cbn. nred. rewrite Hu. cbn. lra.
Qed.

(** ** C21: a default two-phase problem admits a second phase that runs backwards *)
Lemma time_wrong : exists mp z p n, validate (mp_ocp mp) = Ok tt /\ new_ocp 1 1 2 0 = Ok (mp_ocp mp) /\
  input_ok mp (fun _ => None) (fun _ => None) z p /\ nlp_at mp z p = Ok n /\ feasible n /\
  y_tf (user_traj mp z 1) < y_t0 (user_traj mp z 1).
Proof.
  destruct (new_ocp (N := Rnum) 1 1 2 0) as [o|] eqn:Eo; [|discriminate].
  set (mp := Mpo o 1 [1]%nat (demo_cf "LGR")).
  assert (Hmp : mpo_ok mp).
  { constructor; cbn [mp mp_cf mp_nseg mp_orders]; [apply demo_cf_ok; cbn; auto|reflexivity|lia|].
    intros p [<-|[]]; lia. }
  pose proof (new_ocp_ok _ _ _ _ _ Eo (le_n 1)) as Hok. pose proof (new_ocp_scales _ _ _ _ _ Eo) as Hsc.
  destruct (new_ocp_inv _ _ _ _ _ Eo) as (_ & E1 & E2 & E3 & E4).
  set (ys := fun ph : nat => if Nat.eqb ph 0 then Utraj (fun _ _ => 0) (fun _ _ => 0) 0 1 (fun _ => 0)
                             else Utraj (fun _ _ => 0) (fun _ _ => 0) 1 0 (fun _ => 0)).
  assert (Hlp : length [1; 1] = (o_nph (mp_ocp mp) * mp_nseg mp)%nat) by (cbn [mp mp_ocp mp_nseg]; rewrite E3; reflexivity).
  destruct (feasible_pack mp _ _ ys [1; 1] Hmp Hok Hsc Hlp) as (rs & n & R1 & R2 & R3 & _).
  exists mp, (pack mp ys), [1; 1], n. split; [eapply new_ocp_validates; eauto|]. split; [reflexivity|]. split.
  { constructor; auto. apply length_pack. }
  split; [exact R2|].
  assert (Ht : same_traj mp (user_traj mp (pack mp ys) 1) (ys 1%nat)).
  { apply pack_traj; [exact (ok_shapes _ _ _ Hok)|exact Hsc|cbn [mp mp_ocp]; rewrite E3; lia]. }
  split; [|destruct Ht as (_ & _ & T0 & T1 & _); rewrite T0, T1; cbn; lra].
  assert (Ers : rs = [[-1; 1]]). { cbn in R1. injection R1 as <-. reflexivity. } subst rs.
  apply R3. unfold new_ocp in Eo. injection Eo as <-. cbn [mp mp_ocp o_nph].
  split; [|split].
  - intros [|[|ph]] Hph; [| |cbn in Hph; lia]; (split; [|split; [|split; [|split]]]).
    + intros i [|s] Hi Hs; [|cbn in Hs; lia]. cbn. destruct (Nat.eqb_spec i 0); [reflexivity|split; exact I].
    + intros i [|c] Hi Hc; [|cbn in Hc; lia]. cbn. split; exact I.
    + cbn. split; cbn; nred; lra.
    + cbn. split; cbn; nred; [lra|exact I].
    + intros i Hi. cbn in Hi. lia.
    + intros i [|s] Hi Hs; [|cbn in Hs; lia]. cbn. split; exact I.
    + intros i [|c] Hi Hc; [|cbn in Hc; lia]. cbn. split; exact I.
    + cbn. split; cbn; nred; [lra|exact I].
    + cbn. split; cbn; nred; [lra|exact I].
    + intros i Hi. cbn in Hi. lia.
  - assert (Hz : forall ph (c : list R), seg_interp [1%nat] 0 (nth 0 [[-1; 1]] []) (fun i => y_x (ys ph) i 0) c -> forall x, peval c x = 0 + 0 * x).
    { intros ph c Hc x. rewrite (demo_line 1 0 _ c ltac:(lia) Hc x). unfold ys. destruct (Nat.eqb ph 0); cbn; field. }
    intros ph Hph. split; [|split; [|split; [|split; [|split]]]].
    + intros i k j [|s] c Ho Hs Hc; [|cbn in Hs; lia]. pose proof (owned_seg mp i k j Ho) as Hk. cbn in Hk. assert (k = 0)%nat as -> by lia.
      replace (seg_h _ _ _ _ * _) with 0; [eapply line_derive; exact (Hz _ _ Hc)|].
      destruct ph as [|[|ph]]; cbn; nred; [ring|ring|cbn in Hph; lia].
    + intros i k j c Ho Hc. destruct ph as [|[|ph]]; cbn in Hc; [destruct Hc|destruct Hc|destruct ph; destruct Hc].
    + intros H. destruct ph as [|[|ph]]; cbn in H; [discriminate|discriminate|destruct ph; discriminate].
    + intros _ k p' j [|c'] c Hk Hj Hq Hc; [|cbn in Hq; lia]. destruct ph as [|[|ph]]; [split; exact I|split; exact I|cbn in Hph; lia].
    + intros H. destruct ph as [|[|ph]]; cbn in H; [discriminate|discriminate|destruct ph; discriminate].
    + intros c Hc. destruct ph as [|[|ph]]; cbn in Hc; [destruct Hc|destruct Hc|destruct ph; destruct Hc].
  - intros _ k i j Hk. destruct k as [|k]; cbn in Hk; [|destruct k; discriminate]. injection Hk as <- <-. split; [|split].
    + intros [|s] Hs; [|cbn in Hs; lia]. cbn. split; cbn; nred; lra.
    + intros c Hc. reflexivity.
    + reflexivity.
Qed.

(** ** C42: the switches are not validated *)
Lemma validate_switches : exists o : ocp Rnum, validate o = Ok tt /\
  forall mp z p n, mp_ocp mp = o -> nlp_at mp z p <> Ok n.
Proof.
  set (o := demo 1 0 [1] false false [0] [0]).
  assert (Hv : validate o = Ok tt).
  { apply demo_validates; auto. }
  exists (Ocp (N := Rnum) (o_nx o) (o_nu o) (o_na o) (o_nph o) (o_dyn o) (o_path o) (o_mayer o) (o_run o) (o_term o) (o_links o)
    (o_scale_x o) (o_scale_u o) (o_scale_a o) (o_scale_t o) (o_x00 o) (o_xf0 o) (o_u00 o) (o_uf0 o)
    (o_t00 o) (o_tf0 o) (o_a0 o) (o_lbx o) (o_ubx o) (o_lbu o) (o_ubu o) (o_lba o) (o_uba o)
    (o_lbt0 o) (o_ubt0 o) (o_lbtf o) (o_ubtf o) (o_lbe o) (o_ube o) [] (o_lbdu o) (o_ubdu o)
    (o_midu o) (o_ducont o)).
  split; [exact Hv|]. intros mp z p n E. apply no_diff_u; rewrite E; cbn; auto.
Qed.
