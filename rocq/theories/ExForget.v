(** A state that fades at a rate of one half or more (examples for C95). *)
From Coq Require Import Reals Lia Lra Bool Arith String.
From Coquelicot Require Import Coquelicot.
From Coq Require Import List.
From Verif Require Import Num PyList Mat Poly Roots Colloc Ocp Transcribe Spec SpecOcp SpecHadapt SpecTrack SpecContract SpecForget NumR ListR PolyR CollocR CompR CollocThm MeshR BlockR DiscR NlpR OcpR NlpThm ScaleR CostR ConvexR TransR TrackR ExOcp ExNlp ExTail ExContract.
Import ListNotations.
Open Scope R_scope.

(** x' = - (1/2 + |u|) x in both phases; the state may jump between them *)
Definition ebb_dyn (x u : list R) (_ : R) (_ : option (list R)) : res (list R) := Ok [- ((1 / 2 + Rabs (nth 0 u 0)) * nth 0 x 0)].
Definition ebb : ocp Rnum :=
  Ocp (N := Rnum) 1 1 0 2
    [ebb_dyn; ebb_dyn] [fun _ _ _ _ => Ok None; fun _ _ _ _ => Ok None]
    [fun _ _ _ _ _ => Ok (Some 0); fun _ _ _ _ _ => Ok (Some 0)]
    [fun _ _ _ _ => Ok (Some 0); fun _ _ _ _ => Ok (Some 0)]
    [fun _ _ _ _ _ => Ok None; fun _ _ _ _ _ => Ok None] [(0, 1)]%nat
    [1] [1] [] 1 [[0]; [0]] [[0]; [0]] [[0]; [0]] [[0]; [0]] [[0]; [1]] [[1]; [3]] [[]; []]
    [[NInf]; [NInf]] [[PInf]; [PInf]] [[NInf]; [NInf]] [[PInf]; [PInf]] [[]; []] [[]; []]
    [[Fin 0]; [Fin 1]] [[Fin 0]; [Fin 1]] [[Fin 1]; [Fin 3]] [[Fin 1]; [Fin 3]] [[NInf]] [[PInf]]
    [false; false] [Fin (-15); Fin (-15)] [Fin 15; Fin 15] [false; false] [false; false].
Lemma ebb_ok : ocp_ok ebb (fun _ => None) (fun _ => None).
Proof.
  constructor.
  { constructor; cbn; auto; try (apply shaped2; reflexivity).
    - split; [reflexivity|]. intros _. split; [reflexivity|]. intros r [<-|[]]; reflexivity.
    - split; [reflexivity|]. intros _. split; [reflexivity|]. intros r [<-|[]]; reflexivity.
    - intros [|[|i]] [|j] Hi Hj; try lia; cbn; auto; lra.
    - intros [|[|i]] [|j] Hi Hj; try lia; cbn; auto; lra.
    - intros i j Hi Hj; lia.
    - intros [|[|i]] [|j] Hi Hj; try lia; cbn; auto; lra.
    - intros [|[|i]] [|j] Hi Hj; try lia; cbn; auto; lra.
    - intros [|i] [|j] Hi Hj; try lia; cbn; auto; lra. }
  - cbn; lia.
  - intros ph f x u t a H _ _ _. two ph H; eexists; split; reflexivity.
  - intros ph f x u t a H _ _ _. two ph H; eexists; reflexivity.
  - intros ph f xf tf x0 t0 a H _ _ _. two ph H; eexists; reflexivity.
  - intros ph f x u t a H _ _ _. two ph H; reflexivity.
  - intros ph f xf tf x0 t0 a H _ _ _. two ph H; reflexivity.
  - reflexivity.
  - reflexivity.
  - reflexivity.
  - reflexivity.
  - reflexivity.
  - intros; cbn; lia.
  - intros i j [H|[]]. injection H as <- <-. cbn. lia.
  - cbn. lia.
  - intros _ H. discriminate H.
Qed.
Lemma ebb_scales : scales_pos ebb.
Proof. constructor; cbn; [intros s [<-|[]]; lra|intros s [<-|[]]; lra|intros s []|lra]. Qed.
Definition ebb_mp : mpo Rnum := Mpo ebb 2 [1; 1]%nat (demo_cf "LGR").
Lemma ebb_in z : length z = (2 * nvars ebb_mp)%nat -> input_ok ebb_mp (fun _ => None) (fun _ => None) z even.
Proof.
  intros Hz. constructor; [|exact ebb_ok|exact ebb_scales|exact Hz|reflexivity].
  constructor; [apply demo_cf_ok; cbn; auto|reflexivity|cbn; lia|exact ones_pos].
Qed.
Lemma ebb_strong a t0 tf : strongly_dissipative ebb 1 a t0 tf (1 / 2).
Proof.
  intros t u x x' _. unfold dotdiff. cbn [o_nx ebb Rsum].
  change (0 + (x 0%nat - x' 0%nat) * (- ((1 / 2 + Rabs (u 0%nat)) * x 0%nat) - - ((1 / 2 + Rabs (u 0%nat)) * x' 0%nat)) <= - (1 / 2 * (0 + (x 0%nat - x' 0%nat) * (x 0%nat - x' 0%nat)))).
  pose proof (Rabs_pos (u 0%nat)) as A. pose proof (Rle_0_sqr (x 0%nat - x' 0%nat)) as B. unfold Rsqr in B. assert (0 <= Rabs (u 0%nat) * ((x 0%nat - x' 0%nat) * (x 0%nat - x' 0%nat))) by (apply Rmult_le_pos; assumption). nra.
Qed.
(** [v] = 1: fading from 2; [v] = 0: at rest *)
Definition ebbing (v : R) : utraj := Utraj (fun i _ => v * nth i [2; 1; 2 / 3] 0) (fun i _ => nth i [0; 1 / 2; 0] 0) 1 3 (fun _ => 0).
Definition ebb_rest : utraj := Utraj (fun _ _ => 0) (fun _ _ => 0) 0 1 (fun _ => 0).
Lemma ebb_point v : exists (z : list R) n, length z = (2 * nvars ebb_mp)%nat /\ same_traj ebb_mp (user_traj ebb_mp z 1) (ebbing v) /\ nlp_at ebb_mp z even = Ok n /\ feasible n.
Proof.
  set (mp := ebb_mp). set (ys := fun ph => match ph with 0%nat => ebb_rest | _ => ebbing v end). exists (pack mp ys).
  assert (Lz : length (pack mp ys) = (2 * nvars mp)%nat) by (rewrite length_pack; reflexivity).
  assert (HS : forall ph, (ph < 2)%nat -> same_traj mp (user_traj mp (pack mp ys) ph) (ys ph)) by (intros ph Hph; apply (pack_traj mp ys ph (ok_shapes _ _ _ ebb_ok) ebb_scales); exact Hph).
  destruct (nlp_like mp _ _ _ even ys (ebb_in _ Lz) HS) as (rs & n & Er & En & _ & HF & _).
  assert (rs = [[-1; 1]; [-1; 1]]) as -> by (pose proof (eq_trans (eq_sym Er) roots_euler) as X; injection X as X; exact X).
  assert (R0 : Rabs 0 = 0) by apply Rabs_R0. assert (R5 : Rabs (1 / 2) = 1 / 2) by (apply Rabs_pos_eq; lra).
  exists n. split; [exact Lz|]. split; [exact (HS 1%nat ltac:(lia))|]. split; [exact En|]. apply HF. split; [|split].
  - intros [|[|ph]] Hph; [| |cbn in Hph; lia]; (split; [|split; [|split; [|split]]]).
    + intros [|i] [|s] Hi Hss; try (cbn in Hss; lia); [reflexivity|split; exact I].
    + intros i [|s] Hi Hss; [|cbn in Hss; lia]; split; exact I.
    + split; cbn; lra.
    + split; cbn; lra.
    + intros i Hi. cbn in Hi. lia.
    + intros i [|s] Hi Hss; [|cbn in Hss; lia]; split; exact I.
    + intros i [|s] Hi Hss; [|cbn in Hss; lia]; split; exact I.
    + split; cbn; lra.
    + split; cbn; lra.
    + intros i Hi. cbn in Hi. lia.
  - intros [|[|ph]] Hph; [| |cbn in Hph; lia]; quiet; intros i k j [|s] p (q & Eq & Hj & Hww & Ei) Hs Hc; try (cbn in Hs; lia); pose proof (MeshR.nth_error_lt _ _ _ Eq) as Hk; cbn in Hk.
    + assert (Hh : seg_h (mp_cf mp) (width mp even 0) (ys 0%nat) k = 1 / 4) by (destruct k as [|[|k]]; [unfold seg_h, width; cbn; lra|unfold seg_h, width; cbn; lra|lia]). rewrite Hh. clear Hh.
      destruct k as [|[|k]]; [| |lia]; injection Eq as <-; cbn in Ei; subst i; pose proof (seg_line p _ (nth j [-1; 1] 0) Hc) as X; refine (is_derive_ext_val _ _ _ _ _ X);
        change ((0 - 0) / 2 = 1 / 4 * - ((1 / 2 + Rabs 0) * 0)); field.
    + assert (Hh : seg_h (mp_cf mp) (width mp even 1) (ys 1%nat) k = 1 / 2) by (destruct k as [|[|k]]; [unfold seg_h, width; cbn; lra|unfold seg_h, width; cbn; lra|lia]). rewrite Hh. clear Hh.
      destruct k as [|[|k]]; [| |lia]; injection Eq as <-; cbn in Ei; subst i; pose proof (seg_line p _ (nth j [-1; 1] 0) Hc) as X; refine (is_derive_ext_val _ _ _ _ _ X);
        (destruct j as [|[|j]]; [| |lia]); try (exfalso; destruct Hww; lia).
      * change ((v * 1 - v * 2) / 2 = 1 / 2 * - ((1 / 2 + Rabs 0) * (v * 2))). rewrite R0. field.
      * change ((v * 1 - v * 2) / 2 = 1 / 2 * - ((1 / 2 + Rabs (1 / 2)) * (v * 1))). rewrite R5. field.
      * change ((v * (2 / 3) - v * 1) / 2 = 1 / 2 * - ((1 / 2 + Rabs 0) * (v * (2 / 3)))). rewrite R0. field.
  - intros _ [|k] i j H; cbn in H; [|destruct k; discriminate H]. injection H as <- <-. split; [|split].
    + intros [|s] Hss; [|cbn in Hss; lia]; split; exact I.
    + intros [|s] Hss; [|cbn in Hss; lia]. reflexivity.
    + reflexivity.
Qed.
Lemma slow : exp (- (2 * (1 / 2) * ((3 - 1) * (1 / 2)))) * 1 < 4 / 9.
Proof.
  replace (- (2 * (1 / 2) * ((3 - 1) * (1 / 2)))) with (- (1 / 2) + - (1 / 2)) by field. rewrite exp_plus, !exp_Ropp. pose proof (exp_ineq1 (1 / 2) ltac:(lra)) as A. set (e := exp (1 / 2)) in *.
  assert (B : / e < 2 / 3) by (replace (2 / 3) with (/ (3 / 2)) by field; apply Rinv_lt_contravar; nra). assert (0 < / e) by (apply Rinv_0_lt_compat; lra). nra.
Qed.
