(** A cart whose effort is a state (examples for C67). *)
From Coq Require Import Reals Lia Lra Psatz Bool Arith String.
From Coquelicot Require Import Coquelicot.
From Coq Require Import List.
From Verif Require Import Num PyList Mat Poly Roots Colloc Ocp Transcribe Spec SpecOcp SpecHadapt SpecExact SpecTrans SpecMayer NumR ListR PolyR MeshR DiscR NlpR BalanceR NlpThm ScaleR ExactR ConvexR TransR MayerR ExOcp ExGlide.
Import ListNotations.
Open Scope R_scope.

(** [glide] with the effort spent so far as third state *)
Definition charged : ocp Rnum :=
  Ocp (N := Rnum) 3 1 0 1
    [fun x u _ _ => Ok [nth 1 x 0; nth 0 u 0; nth 0 u 0 * nth 0 u 0]] [fun x _ _ _ => Ok (Some [nth 1 x 0 * nth 1 x 0 - 4])]
    [fun xf _ x0 _ _ => Ok (Some (0 + (nth 2 xf 0 - nth 2 x0 0)))]
    [fun _ _ _ _ => Ok (Some 0)] [fun xf _ _ _ _ => Ok (Some [nth 0 xf 0 - 1; nth 1 xf 0])] []
    [1; 1; 1 / 10] [2] [] 1 [[0; 0; 7]] [[1; 0; 19]] [[0]] [[0]] [[0]] [[1]] [[]]
    [[Fin (-50); Fin (-50); Fin 0]] [[Fin 50; Fin 50; PInf]] [[Fin (-50)]] [[Fin 50]] [[]] [[]]
    [[Fin 0]] [[Fin 0]] [[Fin 1]] [[Fin 1]] [] [] [false] [Fin (-15)] [Fin 15] [true] [false].
Lemma charged_ok : ocp_ok charged glide_npath glide_nterm.
Proof.
  constructor.
  { constructor; cbn; auto; try (apply shaped1; reflexivity).
    - split; [reflexivity|]. intros H. lia.
    - split; [reflexivity|]. intros H. lia.
    - intros [|i] [|[|[|j]]] Hi Hj; try lia; cbn; try lra; exact I.
    - intros [|i] [|j] Hi Hj; try lia; cbn; lra.
    - intros i j Hi Hj; lia.
    - intros [|i] [|j] Hi Hj; try lia; cbn; lra.
    - intros [|i] [|j] Hi Hj; try lia; cbn; lra.
    - intros i j Hi Hj; lia. }
  - cbn; lia.
  - intros ph f x u t a H _ _ _. one ph H; eexists; split; reflexivity.
  - intros ph f x u t a H _ _ _. one ph H; eexists; reflexivity.
  - intros ph f xf tf x0 t0 a H _ _ _. one ph H; eexists; reflexivity.
  - intros ph f x u t a H _ _ _. one ph H; cbn; eexists; split; reflexivity.
  - intros ph f xf tf x0 t0 a H _ _ _. one ph H; cbn; eexists; split; reflexivity.
  - reflexivity.
  - reflexivity.
  - reflexivity.
  - reflexivity.
  - reflexivity.
  - intros; cbn; lia.
  - intros i j [].
  - cbn; lia.
  - cbn; intros H; lia.
Qed.
Lemma charged_scales : scales_pos charged.
Proof. constructor; cbn; [intros s [<-|[<-|[<-|[]]]]; lra|intros s [<-|[]]; lra|intros s []|lra]. Qed.
Ltac two l H := destruct l as [|? [|? [|? l]]]; try discriminate H.
Lemma charged_form : mayer_form glide charged.
Proof.
  constructor; try reflexivity.
  - intros ph f f' g x q u t a d l H H' Hg Lx Ed El. one ph H. cbn in H', Hg. injection H' as <-. injection Hg as <-. injection Ed as <-. injection El as <-. two x Lx. reflexivity.
  - intros ph f f' x q u t a H H' Lx. one ph H. cbn in H'. injection H' as <-. two x Lx. reflexivity.
  - intros ph f' x u t a H. one ph H. reflexivity.
  - intros ph f f' xf qf tf x0 q0 t0 a H H' Lx L0. one ph H. cbn in H'. injection H' as <-. two xf Lx. reflexivity.
  - intros ph f f' xf qf tf x0 q0 t0 a l H H' Lx L0 El. one ph H. cbn in H'. injection H' as <-. injection El as <-. two xf Lx. two x0 L0. reflexivity.
  - intros [|[|s]] Hs; [reflexivity|reflexivity|cbn in Hs; lia].
  - intros [|ph] [|[|s]] Hs; try reflexivity; try (cbn in Hs; lia); destruct ph; reflexivity.
  - intros [|ph] [|[|s]] Hs; try reflexivity; try (cbn in Hs; lia); destruct ph; reflexivity.
Qed.

Definition charging : ptraj :=
  Ptraj (fun s => match s with O => [0; 0; 3; - 2] | S O => [0; 6; - 6] | _ => [7; 36; - 72; 48] end) (fun _ => [6; - 12]) 0 1 (fun _ => 0).
Lemma charging_solves : solves charged 0 charging.
Proof.
  constructor; cbn [charging p_t0 p_tf p_x p_u p_a].
  - lra.
  - intros t [|[|[|s]]] Ht Hs; [| | |cbn in Hs; lia].
    + apply (is_derive_ext (fun t => 3 * (t * t) - 2 * (t * t * t))); [intros x; cbn; ring|]. auto_derive; [exact I|]. cbn. ring.
    + apply (is_derive_ext (fun t => 6 * t - 6 * (t * t))); [intros x; cbn; ring|]. auto_derive; [exact I|]. cbn. ring.
    + apply (is_derive_ext (fun t => 7 + 36 * t - 72 * (t * t) + 48 * (t * t * t))); [intros x; cbn; ring|]. auto_derive; [exact I|]. cbn. ring.
  - intros t x Ht [<-|[]]. set (v := t * (1 - t)).
    assert (A : 0 <= v <= 1 / 4) by (unfold v; split; [apply Rmult_le_pos; lra|pose proof (Rle_0_sqr (t - 1 / 2)); unfold Rsqr in *; lra]).
    apply Rle_trans with (36 * (v * v) - 4); [right; unfold v; cbn; nred; ring|nra].
  - intros x [<-|[<-|[]]]; cbn; nred; ring.
  - intros [|[|[|s]]] _ Hs; [| | |cbn in Hs; lia]; cbn; ring.
  - intros t s Ht Hs. assert (W2 : 0 <= t * t <= 1) by (split; [apply Rle_0_sqr|nra]). assert (W3 : 0 <= t * t * t <= 1) by (split; [apply Rmult_le_pos; lra|apply Rle_trans with (1 * 1); [apply Rmult_le_compat; lra|lra]]).
    destruct s as [|[|[|s]]]; [| | |cbn in Hs; lia]; cbn; split; cbn [above below]; nred; try exact I; try lra.
    replace (0 <= _) with (0 <= 7 + t * (12 + 48 * ((t - 3 / 4) * (t - 3 / 4)) - 3)) by (f_equal; field).
    assert (0 <= t * (12 + 48 * ((t - 3 / 4) * (t - 3 / 4)) - 3)); [apply Rmult_le_pos; [lra|pose proof (Rle_0_sqr (t - 3 / 4)); unfold Rsqr in *; lra]|lra].
  - intros t k Ht Hk. destruct k as [|k]; [|cbn in Hk; lia]. cbn. split; cbn [above below]; nred; lra.
  - split; cbn; lra.
  - split; cbn; lra.
  - intros i Hi. cbn in Hi. lia.
Qed.
Lemma charged_point cf K orders p : let mp := Mpo charged K orders cf in mpo_ok mp -> widths_ok K 1 p -> (forall q, In q orders -> (3 <= q)%nat) ->
  exists (z : list R) n, input_ok mp glide_npath glide_nterm z p /\ nlp_at mp z p = Ok n /\ feasible n.
Proof.
  intros mp Hm Hw Hq.
  destruct (exact_thm mp glide_npath glide_nterm p (fun _ => charging) Hm charged_ok charged_scales Hw) as (rs & Er & (z & Hz & Hsm) & HE).
  - intros [|[|ph]]; split; reflexivity.
  - intros ph Hph. cbn in Hph. assert (ph = 0)%nat as -> by lia. apply charging_solves.
  - intros k i j H. destruct k; discriminate H.
  - intros ph _ q Hi. apply Hq in Hi. split; [intros [|[|[|i]]] H; cbn in *; lia|intros k _; cbn; lia].
  - destruct (HE z Hz Hsm) as (n & En & Hf & _). exists z, n. split; [|split; [exact En|exact Hf]].
    constructor; [exact Hm|exact charged_ok|exact charged_scales|exact Hz|]. destruct Hw as [Hw _]. rewrite Nat.mul_comm. exact Hw.
Qed.

(** ** a point of the problem with no counterpart: a control that changes over the only segment, of order 1 *)
Definition idle : ocp Rnum :=
  Ocp (N := Rnum) 1 1 0 1
    [fun _ _ _ _ => Ok [0]] [fun _ _ _ _ => Ok None] [fun _ _ _ _ _ => Ok (Some 0)]
    [fun _ u _ _ => Ok (Some (nth 0 u 0))] [fun _ _ _ _ _ => Ok None] []
    [1] [1] [] 1 [[0]] [[0]] [[0]] [[0]] [[0]] [[1]] [[]]
    [[Fin 0]] [[Fin 1]] [[Fin 0]] [[Fin 1]] [[]] [[]]
    [[Fin 0]] [[Fin 0]] [[Fin 1]] [[Fin 1]] [] [] [false] [Fin (-15)] [Fin 15] [false] [false].
Definition idle' : ocp Rnum :=
  Ocp (N := Rnum) 2 1 0 1
    [fun _ u _ _ => Ok [0; nth 0 u 0]] [fun _ _ _ _ => Ok None] [fun xf _ x0 _ _ => Ok (Some (0 + (nth 1 xf 0 - nth 1 x0 0)))]
    [fun _ _ _ _ => Ok (Some 0)] [fun _ _ _ _ _ => Ok None] []
    [1; 1] [1] [] 1 [[0; 0]] [[0; 0]] [[0]] [[0]] [[0]] [[1]] [[]]
    [[Fin 0; NInf]] [[Fin 1; PInf]] [[Fin 0]] [[Fin 1]] [[]] [[]]
    [[Fin 0]] [[Fin 0]] [[Fin 1]] [[Fin 1]] [] [] [false] [Fin (-15)] [Fin 15] [false] [false].
Lemma idle_ok : ocp_ok idle (fun _ => None) (fun _ => None).
Proof.
  constructor.
  { constructor; cbn; auto; try (apply shaped1; reflexivity).
    - split; [reflexivity|]. intros H. lia.
    - split; [reflexivity|]. intros H. lia.
    - intros [|i] [|j] Hi Hj; try lia; cbn; lra.
    - intros [|i] [|j] Hi Hj; try lia; cbn; lra.
    - intros i j Hi Hj; lia.
    - intros [|i] [|j] Hi Hj; try lia; cbn; lra.
    - intros [|i] [|j] Hi Hj; try lia; cbn; lra.
    - intros i j Hi Hj; lia. }
  - cbn; lia.
  - intros ph f x u t a H _ _ _. one ph H; eexists; split; reflexivity.
  - intros ph f x u t a H _ _ _. one ph H; eexists; reflexivity.
  - intros ph f xf tf x0 t0 a H _ _ _. one ph H; eexists; reflexivity.
  - intros ph f x u t a H _ _ _. one ph H; reflexivity.
  - intros ph f xf tf x0 t0 a H _ _ _. one ph H; reflexivity.
  - reflexivity.
  - reflexivity.
  - reflexivity.
  - reflexivity.
  - reflexivity.
  - intros; cbn; lia.
  - intros i j [].
  - cbn; lia.
  - cbn; intros H; lia.
Qed.
Lemma idle_ok' : ocp_ok idle' (fun _ => None) (fun _ => None).
Proof.
  constructor.
  { constructor; cbn; auto; try (apply shaped1; reflexivity).
    - split; [reflexivity|]. intros H. lia.
    - split; [reflexivity|]. intros H. lia.
    - intros [|i] [|[|j]] Hi Hj; try lia; cbn; try lra; exact I.
    - intros [|i] [|j] Hi Hj; try lia; cbn; lra.
    - intros i j Hi Hj; lia.
    - intros [|i] [|j] Hi Hj; try lia; cbn; lra.
    - intros [|i] [|j] Hi Hj; try lia; cbn; lra.
    - intros i j Hi Hj; lia. }
  - cbn; lia.
  - intros ph f x u t a H _ _ _. one ph H; eexists; split; reflexivity.
  - intros ph f x u t a H _ _ _. one ph H; eexists; reflexivity.
  - intros ph f xf tf x0 t0 a H _ _ _. one ph H; eexists; reflexivity.
  - intros ph f x u t a H _ _ _. one ph H; reflexivity.
  - intros ph f xf tf x0 t0 a H _ _ _. one ph H; reflexivity.
  - reflexivity.
  - reflexivity.
  - reflexivity.
  - reflexivity.
  - reflexivity.
  - intros; cbn; lia.
  - intros i j [].
  - cbn; lia.
  - cbn; intros H; lia.
Qed.
Lemma idle_scales : scales_pos idle.
Proof. constructor; cbn; [intros s [<-|[]]; lra|intros s [<-|[]]; lra|intros s []|lra]. Qed.
Lemma idle_scales' : scales_pos idle'.
Proof. constructor; cbn; [intros s [<-|[<-|[]]]; lra|intros s [<-|[]]; lra|intros s []|lra]. Qed.
Lemma idle_form : mayer_form idle idle'.
Proof.
  constructor; try reflexivity.
  - intros ph f f' g x q u t a d l H H' Hg Lx Ed El. one ph H. cbn in H', Hg. injection H' as <-. injection Hg as <-. injection Ed as <-. injection El as <-. reflexivity.
  - intros ph f f' x q u t a H H' Lx. one ph H. cbn in H'. injection H' as <-. reflexivity.
  - intros ph f' x u t a H. one ph H. reflexivity.
  - intros ph f f' xf qf tf x0 q0 t0 a H H' Lx L0. one ph H. cbn in H'. injection H' as <-. reflexivity.
  - intros ph f f' xf qf tf x0 q0 t0 a l H H' Lx L0 El. one ph H. cbn in H'. injection H' as <-. injection El as <-.
    destruct xf as [|? [|? xf]]; try discriminate Lx. destruct x0 as [|? [|? x0]]; try discriminate L0. reflexivity.
  - intros [|s] Hs; [reflexivity|cbn in Hs; lia].
  - intros [|ph] [|s] Hs; try reflexivity; try (cbn in Hs; lia); destruct ph; reflexivity.
  - intros [|ph] [|s] Hs; try reflexivity; try (cbn in Hs; lia); destruct ph; reflexivity.
Qed.
Lemma idle_free : free_last idle idle'.
Proof. split; [|intros k r H; cbn in H; lia]. intros ph r H. cbn in H. assert (ph = 0)%nat as -> by lia. split; exact I. Qed.
Definition idle_mp : mpo Rnum := Mpo idle 1 [1]%nat (demo_cf "LGR").
Lemma idle_mpo : mpo_ok idle_mp.
Proof. constructor; cbn [idle_mp mp_cf mp_nseg mp_orders]; [apply demo_cf_ok; cbn; auto|reflexivity|lia|]. intros q [<-|[]]. lia. Qed.
Definition idling : utraj := Utraj (fun _ _ => 0) (fun i _ => match i with O => 0 | _ => 1 end) 0 1 (fun _ => 0).
Definition idle_z : list R := pack idle_mp (fun _ => idling).
Lemma idle_input : input_ok idle_mp (fun _ => None) (fun _ => None) idle_z [1].
Proof. constructor; [exact idle_mpo|exact idle_ok|exact idle_scales| |reflexivity]. unfold idle_z. rewrite length_pack. reflexivity. Qed.
Lemma idle_traj ph : (ph < 1)%nat -> same_traj idle_mp (user_traj idle_mp idle_z ph) idling.
Proof. intros H. exact (pack_traj idle_mp (fun _ => idling) ph (ok_shapes _ _ _ idle_ok) idle_scales H). Qed.
Lemma idle_roots rs : mapM (c_roots (mp_cf idle_mp)) (mp_orders idle_mp) = Ok rs -> rs = [[-1; 1]].
Proof. intros Er. pose proof (eq_trans (eq_sym Er) (eq_refl (Ok [[-1; 1]]))) as X. injection X as X. exact X. Qed.
Lemma idle_feasible : exists n, nlp_at idle_mp idle_z [1] = Ok n /\ feasible n.
Proof.
  destruct (nlp_like idle_mp _ _ _ _ (fun _ => idling) idle_input idle_traj) as (rs & n & Er & En & Hlen & Hf & _). exists n. split; [exact En|]. apply Hf. pose proof (idle_roots rs Er) as ->.
  split; [|split].
  - intros ph Hph. cbn in Hph. assert (ph = 0)%nat as -> by lia. split; [|split; [|split; [|split]]].
    + intros i s _ Hs. cbn in Hs. assert (s = 0)%nat as -> by lia. destruct i; cbn; [reflexivity|split; cbn; lra].
    + intros i c _ Hs. cbn in Hs. assert (c = 0)%nat as -> by lia. destruct i; cbn; split; cbn; lra.
    + split; cbn; lra.
    + split; cbn; lra.
    + intros i Hi. cbn in Hi. lia.
  - intros ph Hph. cbn in Hph. assert (ph = 0)%nat as -> by lia. split; [|split; [|split; [|split; [|split]]]].
    + intros i k j s c Ho Hs [Lc Ec]. cbn in Hs. assert (s = 0)%nat as -> by lia.
      assert (k = 0)%nat as -> by (destruct Ho as (q & Hq & _); destruct k as [|[|k]]; [reflexivity|discriminate Hq|discriminate Hq]).
      assert (Z : forall x, peval c x = peval [] x).
      { apply (interp_unique [-1; 1]); [constructor; [intros [E|[]]; lra|constructor; [intros []|constructor]]|exact Lc|cbn; lia|]. intros j' Hj'. rewrite Ec by exact Hj'. reflexivity. }
      apply (is_derive_ext (fun _ => 0)); [intros x; rewrite Z; reflexivity|]. evar_last; [apply @is_derive_const|]. cbn. nred. unfold zero; cbn. ring.
    + intros i k j c _ [].
    + intros H; discriminate H.
    + intros H; discriminate H.
    + intros H; discriminate H.
    + intros c [].
  - intros H. cbn in H. lia.
Qed.
Lemma idle_stuck : exists (mp : mpo Rnum) o' npath nterm z p n, input_ok mp npath nterm z p /\ ocp_ok o' npath nterm /\ scales_pos o' /\ mayer_form (mp_ocp mp) o' /\ free_last (mp_ocp mp) o' /\
  nlp_at mp z p = Ok n /\ feasible n /\
  let mp' := Mpo o' (mp_nseg mp) (mp_orders mp) (mp_cf mp) in
  forall z' n', length z' = (o_nph o' * nvars mp')%nat -> same_motion mp mp' z z' -> nlp_at mp' z' p = Ok n' -> ~ feasible n'.
Proof.
  destruct idle_feasible as (n & En & Hf). exists idle_mp, idle', (fun _ => None), (fun _ => None), idle_z, [1], n.
  split; [exact idle_input|]. split; [exact idle_ok'|]. split; [exact idle_scales'|]. split; [exact idle_form|]. split; [exact idle_free|]. split; [exact En|]. split; [exact Hf|].
  intros mp' z' n' Hz' Hs En' Hf'. pose proof (idle_traj 0 ltac:(lia)) as (T1 & T2 & T3 & T4 & _).
  destruct (mayer_back idle_mp idle' _ _ _ _ idle_z [1] idle_input idle_ok' idle_scales' idle_form idle_free) as (rs & n1 & Er & E1 & H).
  - exact sprint_widths.
  - intros ph Hph. cbn in Hph. assert (ph = 0)%nat as -> by lia. rewrite T3, T4. cbn. lra.
  - assert (n1 = n) as -> by (pose proof (eq_trans (eq_sym E1) En) as X; injection X as X; exact X).
    pose proof (idle_roots rs Er) as ->. destruct (proj1 (H Hf) (ex_intro _ z' (ex_intro _ n' (conj Hz' (conj Hs (conj En' Hf'))))) 0%nat) as (C & LC & EC); [cbn; lia|].
    pose proof (EC 0%nat ltac:(cbn; lia)) as A0. pose proof (EC 1%nat ltac:(cbn; lia)) as A1.
    assert (B0 : run_at idle_mp [[-1; 1]] (width idle_mp [1] 0) 0 (user_traj idle_mp idle_z 0) 0 0 = 0) by (refine (eq_trans _ (T2 0%nat 0%nat _ _)); [reflexivity|cbn; lia|cbn; lia]).
    assert (B1 : run_at idle_mp [[-1; 1]] (width idle_mp [1] 0) 0 (user_traj idle_mp idle_z 0) 0 1 = 1) by (refine (eq_trans _ (T2 1%nat 0%nat _ _)); [reflexivity|cbn; lia|cbn; lia]).
    rewrite B0 in A0. rewrite B1 in A1. cbn in LC. destruct C as [|c [|c' C]]; cbn in A0, A1, LC; nred; [lra|lra|lia].
Qed.
