(** Example problems: witnesses that hypotheses can be met, and counterexamples. *)
From Coq Require Import Reals Lia Lra Bool Arith String.
From Coquelicot Require Import Coquelicot.
From Coq Require Import List.
From Verif Require Import Num PyList Mat Poly Roots Colloc Ocp Transcribe Spec SpecOcp NumR ListR PolyR CollocR CompR CollocThm JacobiR MeshR BlockR DiscR NlpR OcpR NlpThm GuessR CostR ScaleR.
Import ListNotations.
Open Scope R_scope.

(** A two-phase problem with two states, a control, a parameter, a path constraint in the first
    phase, two terminal conditions in the second, scales, control switches and an event with a
    jump. *)
Definition par (a : option (list R)) : R := match a with Some l => nth 0 l 0 | None => 0 end.
Definition rich : ocp Rnum :=
  Ocp (N := Rnum) 2 1 1 2
    [ (fun x u t a => Ok [nth 1 x 0; nth 0 u 0 * par a - t]); (fun x u t a => Ok [nth 1 x 0; nth 0 u 0 - nth 0 x 0]) ]
    [ (fun x u t a => Ok (Some [nth 0 x 0 - 10])); (fun x u t a => Ok None) ]
    [ (fun xf tf x0 t0 a => Ok (Some 0)); (fun xf tf x0 t0 a => Ok (Some (tf + par a))) ]
    [ (fun x u t a => Ok (Some (nth 0 u 0 * nth 0 u 0))); (fun x u t a => Ok (Some (nth 0 x 0))) ]
    [ (fun xf tf x0 t0 a => Ok None); (fun xf tf x0 t0 a => Ok (Some [nth 0 xf 0 - 1; nth 1 xf 0])) ]
    [(0, 1)]%nat
    [2; 1 / 2] [4] [1 / 10] (1 / 3)
    [[0; 1]; [0; 0]] [[1; 1]; [1; 0]] [[0]; [1]] [[1]; [0]] [[0]; [1]] [[1]; [2]] [[1]; [1]]
    [[Fin (-5); NInf]; [Fin (-5); NInf]] [[Fin 20; PInf]; [Fin 20; PInf]]
    [[Fin (-1)]; [NInf]] [[Fin 1]; [PInf]] [[Fin 0]; [Fin 0]] [[Fin 3]; [Fin 3]]
    [[Fin 0]; [Fin 0]] [[Fin 0]; [PInf]] [[Fin (1 / 2)]; [Fin 1]] [[Fin 2]; [Fin 5]]
    [[Fin (-1); Fin 0]] [[Fin 1; Fin 0]]
    [true; false] [Fin (-15); Fin (-15)] [Fin 15; PInf] [true; true] [false; true].
Definition rich_npath (ph : nat) : option nat := match ph with 0%nat => Some 1%nat | _ => None end.
Definition rich_nterm (ph : nat) : option nat := match ph with 1%nat => Some 2%nat | _ => None end.
Ltac two ph H := destruct ph as [|[|ph]]; cbn in H;
  [injection H as <-|injection H as <-|exfalso; destruct ph; discriminate].
Lemma shaped2 {T} (a b : list T) c : length a = c -> length b = c -> shaped [a; b] 2 c.
Proof. intros Ha Hb. split; [reflexivity|]. intros r [<-|[<-|[]]]; auto. Qed.
Lemma rich_shapes : shapes_ok rich.
Proof.
  constructor; cbn; auto; try (apply shaped2; reflexivity).
  - split; [reflexivity|]. intros _. split; [reflexivity|]. intros r [<-|[]]; reflexivity.
  - split; [reflexivity|]. intros _. split; [reflexivity|]. intros r [<-|[]]; reflexivity.
  - intros [|[|i]] [|[|j]] Hi Hj; try lia; cbn; lra.
  - intros [|[|i]] [|j] Hi Hj; try lia; cbn; lra.
  - intros [|[|i]] [|j] Hi Hj; try lia; cbn; lra.
  - intros [|[|i]] [|j] Hi Hj; try lia; cbn; lra.
  - intros [|[|i]] [|j] Hi Hj; try lia; cbn; lra.
  - intros [|i] [|[|j]] Hi Hj; try lia; cbn; lra.
Qed.
Lemma rich_ok : ocp_ok rich rich_npath rich_nterm.
Proof.
  constructor; [exact rich_shapes|cbn; lia|..].
  - intros ph f x u t a H _ _ _. two ph H; eexists; split; reflexivity.
  - intros ph f x u t a H _ _ _. two ph H; eexists; reflexivity.
  - intros ph f xf tf x0 t0 a H _ _ _. two ph H; eexists; reflexivity.
  - intros ph f x u t a H _ _ _. two ph H; cbn; [eexists; split; reflexivity|reflexivity].
  - intros ph f xf tf x0 t0 a H _ _ _. two ph H; cbn; [reflexivity|eexists; split; reflexivity].
  - reflexivity.
  - reflexivity.
  - reflexivity.
  - reflexivity.
  - reflexivity.
  - intros; cbn; lia.
  - intros i j [H|[]]. injection H as <- <-. cbn. lia.
  - cbn. lia.
  - intros _ H. discriminate H.
Qed.
Lemma rich_scales : scales_pos rich.
Proof.
  constructor; cbn; [intros s [<-|[<-|[]]]; lra|intros s [<-|[]]; lra|intros s [<-|[]]; lra|lra].
Qed.
Definition demo_cf (s : string) : ccfg Rnum := Ccfg (N := Rnum) ideal_lib Numerical s (-1) 1.
Lemma demo_cf_ok s : In s ["LGR"; "LGL"; "CGL"]%string -> cfg_ok (demo_cf s).
Proof. intros H. constructor; cbn; [exact ideal_lib_ok|exact H|lra]. Qed.
Definition rich_mp : mpo Rnum := Mpo rich 3 [3; 1; 2]%nat (demo_cf "LGR").
Lemma rich_mp_ok : mpo_ok rich_mp.
Proof.
  constructor; cbn [rich_mp mp_cf mp_nseg mp_orders]; [apply demo_cf_ok; cbn; auto|reflexivity|lia|].
  intros p [<-|[<-|[<-|[]]]]; lia.
Qed.
Definition rich_p : list R := [1 / 2; 1 / 4; 1 / 4; 1 / 3; 1 / 3; 1 / 3].
Lemma rich_input : input_ok rich_mp rich_npath rich_nterm (repeat 1 (2 * nvars rich_mp)) rich_p.
Proof.
  constructor; [exact rich_mp_ok|exact rich_ok|exact rich_scales|apply repeat_length|reflexivity].
Qed.

(** One state, no dynamics; parametric in the controls and their switches. *)
Definition demo (nu : nat) (q : R) (su : list R) (du dc : bool) (u0 uf : list R) : ocp Rnum :=
  Ocp (N := Rnum) 1 nu 0 1
    [fun _ _ _ _ => Ok [0]] [fun _ _ _ _ => Ok None] [fun _ _ _ _ _ => Ok (Some 0)]
    [fun _ _ _ _ => Ok (Some q)] [fun _ _ _ _ _ => Ok None] []
    [1] su [] 1 [[0]] [[0]] [u0] [uf] [[0]] [[1]] [[]]
    [[NInf]] [[PInf]] [repeat NInf nu] [repeat PInf nu] [[]] [[]]
    [[Fin 0]] [[Fin 0]] [[Fin 0]] [[PInf]] [] [] [du] [Fin (-15)] [Fin 15] [true] [dc].
Ltac one ph H := destruct ph as [|ph]; cbn in H; [injection H as <-|exfalso; destruct ph; discriminate].
Lemma shaped1 {T} (a : list T) c : length a = c -> shaped [a] 1 c.
Proof. intros Ha. split; [reflexivity|]. intros r [<-|[]]; auto. Qed.
Lemma offset_ones k n : (k <= n)%nat -> offset (repeat 1%nat n) k = k.
Proof. revert k; induction n as [|n IH]; intros [|k] H; cbn; try lia. rewrite IH; lia. Qed.
(** the polynomial of a segment is the straight line *)
Lemma demo_line K k ys c : (k < K)%nat -> seg_interp (repeat 1%nat K) k (nth k (repeat [-1; 1] K) []) ys c ->
  forall x, peval c x = (ys k + ys (S k)) / 2 + (ys (S k) - ys k) / 2 * x.
Proof.
  intros Hk [H1 H2]. rewrite (nth_repeat_in (A := list R)) in H1, H2 by auto. rewrite offset_ones in H2 by lia. cbn [length] in H1, H2.
  assert (E0 := H2 0%nat ltac:(lia)). assert (E1 := H2 1%nat ltac:(lia)). cbn [nth] in E0, E1.
  rewrite Nat.add_0_r in E0. rewrite Nat.add_1_r in E1.
  intros x. transitivity (peval [(ys k + ys (S k)) / 2; (ys (S k) - ys k) / 2] x); [|cbn; field].
  apply (interp_unique [-1; 1]); auto.
  - constructor; [intros [E|[]]; lra|constructor; [intros []|constructor]].
  - intros [|[|j]] Hj; cbn [nth length] in *; [rewrite E0; cbn; field|rewrite E1; cbn; field|lia].
Qed.
Lemma line_derive (c : list R) a b x : (forall x, peval c x = a + b * x) -> is_derive (peval c) x b.
Proof.
  intros H. apply (is_derive_ext (fun x => a + b * x)); [intros; symmetry; apply H|]. auto_derive; [exact I|ring].
Qed.
Lemma line_Derive (c : list R) a b x : (forall x, peval c x = a + b * x) -> Derive (peval c) x = b.
Proof. intros H. apply is_derive_unique. eapply line_derive; eauto. Qed.

Section Demo.
Variables (nu : nat) (q : R) (su : list R) (du dc : bool) (u0 uf : list R).
Hypothesis Hsu : length su = nu.
Hypothesis Hu0 : length u0 = nu.
Hypothesis Huf : length uf = nu.
Hypothesis Hpos : forall s, In s su -> 0 < s.
Hypothesis Hnu : (1 <= nu)%nat.
Let d := demo nu q su du dc u0 uf.
Lemma demo_shapes : shapes_ok d.
Proof.
  constructor; cbn; auto; try (apply shaped1; auto; apply repeat_length).
  - split; [reflexivity|]. intros H. lia.
  - split; [reflexivity|]. intros H. lia.
  - intros [|i] [|j] Hi Hj; try lia; cbn; auto.
  - intros [|i] j Hi Hj; try lia. cbn. rewrite !(nth_repeat_in (A := ext R)) by auto. exact I.
  - intros i j Hi Hj; lia.
  - intros [|i] [|j] Hi Hj; try lia; cbn; lra.
  - intros [|i] [|j] Hi Hj; try lia; cbn; auto.
  - intros i j Hi Hj; lia.
Qed.
Lemma demo_ok : ocp_ok d (fun _ => None) (fun _ => None).
Proof.
  constructor; [exact demo_shapes|cbn; lia|..].
  - intros ph f x u t a H _ _ _. one ph H; eexists; split; reflexivity.
  - intros ph f x u t a H _ _ _. one ph H; eexists; reflexivity.
  - intros ph f xf tf x0 t0 a H _ _ _. one ph H; eexists; reflexivity.
  - intros ph f x u t a H _ _ _. one ph H; reflexivity.
  - intros ph f xf tf x0 t0 a H _ _ _. one ph H; reflexivity.
  - reflexivity.
  - reflexivity.
  - reflexivity.
  - reflexivity.
  - reflexivity.
  - intros; cbn; lia.
  - intros i j [].
  - cbn. lia.
  - intros H. cbn in H. lia.
Qed.
Lemma demo_scales : scales_pos d.
Proof. constructor; cbn; [intros s [<-|[]]; lra|exact Hpos|intros s []|lra]. Qed.
Lemma demo_validates : validate d = Ok tt.
Proof.
  apply validate_complete; [exact demo_shapes|]. intros ph Hph. cbn in Hph. assert (ph = 0)%nat as -> by lia.
  unfold guess_ok. cbn.
  split; [do 2 eexists; split; [reflexivity|]; split; reflexivity|].
  split; [do 2 eexists; split; reflexivity|]. split; [do 2 eexists; split; reflexivity|].
  split; (do 2 eexists; split; [reflexivity|]; split; [reflexivity|discriminate]).
Qed.

(** LGR, segments of order one *)
Variable K : nat.
Hypothesis HK : (1 <= K)%nat.
Definition demo_mp : mpo Rnum := Mpo d K (repeat 1%nat K) (demo_cf "LGR").
Lemma demo_mp_ok : mpo_ok demo_mp.
Proof.
  constructor; cbn [demo_mp mp_cf mp_nseg mp_orders]; [apply demo_cf_ok; cbn; auto|apply repeat_length|exact HK|].
  intros p Hp. apply repeat_spec in Hp. lia.
Qed.
Lemma demo_roots : mapM (c_roots (mp_cf demo_mp)) (mp_orders demo_mp) = Ok (repeat [-1; 1] K).
Proof.
  cbn [demo_mp mp_cf mp_orders]. clear. induction K as [|n IH]; [reflexivity|].
  cbn [repeat mapM]. nred. rewrite IH. reflexivity.
Qed.
(** a trajectory at rest with given controls and end times *)
Definition rest (u : nat -> nat -> R) (t0 tf : R) : utraj := Utraj (fun _ _ => 0) u t0 tf (fun _ => 0).
Variables (u : nat -> nat -> R) (tf : R) (p : list R).
Hypothesis Htf : 0 <= tf.
Hypothesis Hp : length p = K.
Let y := rest u 0 tf.
Lemma demo_z : exists z n, input_ok demo_mp (fun _ => None) (fun _ => None) z p /\
  nlp_at demo_mp z p = Ok n /\ same_traj demo_mp (user_traj demo_mp z 0) y /\
  (feasible n <-> slope_ok demo_mp (repeat [-1; 1] K) 0 y /\ ducont_ok demo_mp (repeat [-1; 1] K) 0 y) /\
  (forall C B, cost_interp demo_mp (repeat [-1; 1] K) (width demo_mp p 0) 0 y C -> start_basis demo_mp (repeat [-1; 1] K) B ->
     n_f n = phase_cost demo_mp (width demo_mp p 0) 0 y C - start_cost demo_mp (repeat [-1; 1] K) (width demo_mp p 0) 0 y B).
Proof.
  assert (Hlp : length p = (o_nph (mp_ocp demo_mp) * mp_nseg demo_mp)%nat) by (cbn; lia).
  destruct (feasible_pack demo_mp _ _ (fun _ => y) p demo_mp_ok demo_ok demo_scales Hlp) as (rs & n & R1 & R2 & R3 & R4).
  rewrite demo_roots in R1. assert (rs = repeat [-1; 1] K) by (nred; congruence). subst rs. clear R1.
  exists (pack demo_mp (fun _ => y)), n. split; [|split; [exact R2|split; [|split]]].
  - constructor; [exact demo_mp_ok|exact demo_ok|exact demo_scales|apply length_pack|exact Hlp].
  - apply pack_traj; [exact demo_shapes|exact demo_scales|cbn; lia].
  - rewrite R3. split.
    + intros (_ & H & _). destruct (H 0%nat ltac:(cbn; lia)) as (_ & _ & A & _ & B & _). auto.
    + intros (A & B). split; [|split; [|intros H; cbn in H; lia]].
      * intros ph Hph. cbn in Hph. assert (ph = 0)%nat as -> by lia. split; [|split; [|split; [|split]]].
        -- intros i [|s] Hi Hs; [|cbn in Hs; lia]. cbn. destruct (Nat.eqb_spec i 0); [reflexivity|split; exact I].
        -- intros i c Hi Hc. unfold bnd. cbn. cbn in Hc. rewrite !(nth_repeat_in (A := ext R)) by auto. split; exact I.
        -- cbn. unfold bnd. cbn. split; cbn; lra.
        -- cbn. unfold bnd. cbn. split; cbn; [exact Htf|exact I].
        -- intros i Hi. cbn in Hi. lia.
      * intros ph Hph. cbn in Hph. assert (ph = 0)%nat as -> by lia. split; [|split; [|split; [exact A|split; [|split; [exact B|]]]]].
        -- intros i k j [|s] c Ho Hs Hc; [|cbn in Hs; lia]. pose proof (owned_seg demo_mp i k j Ho) as Hk.
           cbn [demo_mp mp_orders] in Hk. rewrite repeat_length in Hk.
           pose proof (demo_line K k _ c Hk Hc) as Hl. cbn [y rest y_x] in Hl.
           replace (seg_h (mp_cf demo_mp) (width demo_mp p 0) y k * _) with ((0 - 0) / 2); [eapply line_derive; exact Hl|].
           cbn. nred. field.
        -- intros i k j c Ho Hc. cbn in Hc. destruct Hc.
        -- intros _ k p' j c' c Hk Hj Hq Hc. unfold bnd. cbn. cbn in Hq. rewrite !(nth_repeat_in (A := ext R)) by auto. split; exact I.
        -- intros c Hc. cbn in Hc. destruct Hc.
  - intros C B HC HB. rewrite (R4 (fun _ => C) B).
    + cbn [demo_mp mp_ocp d demo o_nph Rsum]. lra.
    + intros ph Hph. cbn in Hph. assert (ph = 0)%nat as -> by lia. exact HC.
    + exact HB.
Qed.
End Demo.
