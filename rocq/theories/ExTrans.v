(** A family of problems related to each other (examples for C64, C65 and C66). *)
From Coq Require Import Reals Lia Lra Psatz Bool Arith String.
From Coquelicot Require Import Coquelicot.
From Coq Require Import List.
From Verif Require Import Num PyList Mat Poly Roots Colloc Ocp Transcribe Spec SpecOcp SpecHadapt SpecExact SpecTrans NumR ListR PolyR BalanceR NlpThm ExactR ExOcp.
Import ListNotations.
Open Scope R_scope.

(** a cart pushed against a wind that grows from time [s] on: speed^2 at most [v], position, speed and force within
    [b], slopes of the force bounded when [d], cost alpha * u^2 on the way and beta * x^2 + gamma at the end *)
Definition cart (s v b alpha beta gamma : R) (d : bool) : ocp Rnum :=
  Ocp (N := Rnum) 2 1 0 1
    [fun x u t _ => Ok [nth 1 x 0; nth 0 u 0 - (t - s)]] [fun x _ _ _ => Ok (Some [nth 1 x 0 * nth 1 x 0 - v])]
    [fun xf _ _ _ _ => Ok (Some (beta * (nth 0 xf 0 * nth 0 xf 0) + gamma))]
    [fun _ u _ _ => Ok (Some (alpha * (nth 0 u 0 * nth 0 u 0)))] [fun xf tf _ t0 _ => Ok (Some [nth 0 xf 0 - (tf - t0); nth 1 xf 0])] []
    [1; 1] [2] [] 1 [[0; 0]] [[1; 0]] [[0]] [[0]] [[s]] [[s + 1]] [[]]
    [[Fin (- b); Fin (- b)]] [[Fin b; Fin b]] [[Fin (- b)]] [[Fin b]] [[]] [[]]
    [[Fin s]] [[Fin s]] [[Fin (s + 1)]] [[Fin (s + 2)]] [] [] [d] [Fin (- b)] [Fin b] [true] [d].
Definition cart_npath (ph : nat) : option nat := Some 1%nat.
Definition cart_nterm (ph : nat) : option nat := Some 2%nat.
Lemma cart_ok s v b alpha beta gamma d : 0 <= b -> ocp_ok (cart s v b alpha beta gamma d) cart_npath cart_nterm.
Proof.
  intros Hb. constructor.
  { constructor; cbn; auto; try (apply shaped1; reflexivity).
    - split; [reflexivity|]. intros H. lia.
    - split; [reflexivity|]. intros H. lia.
    - intros [|i] [|[|j]] Hi Hj; try lia; cbn; lra.
    - intros [|i] [|j] Hi Hj; try lia; cbn; lra.
    - intros i j Hi Hj; lia.
    - intros [|i] [|j] Hi Hj; try lia; cbn; lra.
    - intros [|i] [|j] Hi Hj; try lia; cbn; lra.
    - intros i j Hi Hj; lia. }
  - cbn; lia.
  - intros ph f x u t a H _ _ _. one ph H; eexists; split; reflexivity.
  - intros ph f x u t a H _ _ _. one ph H; eexists; reflexivity.
  - intros ph f xf tf x0 t0 a H _ _ _. one ph H; eexists; reflexivity.
  - intros ph f x u t a H _ _ _. one ph H; cbn; eexists; split; reflexivity.
  - intros ph f xf tf x0 t0 a H _ _ _. one ph H; cbn; eexists; split; reflexivity.
  - reflexivity.
  - reflexivity.
  - reflexivity.
  - reflexivity.
  - reflexivity.
  - intros; cbn; lia.
  - intros i j [].
  - cbn; lia.
  - cbn; intros H; lia.
Qed.
Lemma cart_scales s v b alpha beta gamma d : scales_pos (cart s v b alpha beta gamma d).
Proof. constructor; cbn; [intros r [<-|[<-|[]]]; lra|intros r [<-|[]]; lra|intros r []|lra]. Qed.
Lemma cart_same s v b alpha beta gamma d s' v' b' alpha' beta' gamma' d' :
  same_vars (cart s v b alpha beta gamma d) (cart s' v' b' alpha' beta' gamma' d').
Proof. constructor; reflexivity. Qed.

Lemma cart_relaxed s v v' b b' alpha beta gamma alpha' beta' gamma' d : v <= v' -> 0 <= b <= b' ->
  relaxed (cart s v b alpha beta gamma d) (cart s v' b' alpha' beta' gamma' false).
Proof.
  intros Hv Hb. constructor; try reflexivity; try (apply cart_same).
  - intros ph y i t Hph H c Hc. cbn in Hph. assert (ph = 0)%nat as -> by lia.
    destruct Hc as [<-|[]]. specialize (H _ (or_introl eq_refl)). cbn in *. nred. lra.
  - intros ph y last Hph H c Hc. cbn in Hph. assert (ph = 0)%nat as -> by lia. apply H. exact Hc.
  - intros ph r Hph Hr. cbn in Hph, Hr. assert (ph = 0)%nat as -> by lia. destruct r as [|[|r]]; [| |lia]; split; cbn; lra.
  - intros ph r Hph Hr. cbn in Hph, Hr. assert (ph = 0)%nat as -> by lia. destruct r as [|r]; [|lia]; split; cbn; lra.
  - intros ph r Hph Hr. cbn in Hr. lia.
  - intros ph Hph. cbn in Hph. assert (ph = 0)%nat as -> by lia. split; cbn; lra.
  - intros ph Hph. cbn in Hph. assert (ph = 0)%nat as -> by lia. split; cbn; lra.
  - intros k r Hk. cbn in Hk. lia.
  - intros ph Hph. cbn in Hph. assert (ph = 0)%nat as -> by lia. discriminate.
  - intros ph Hph. cbn in Hph. assert (ph = 0)%nat as -> by lia. reflexivity.
  - intros ph Hph. cbn in Hph. assert (ph = 0)%nat as -> by lia. discriminate.
Qed.
Lemma cart_cheaper s v v' b b' alpha beta gamma alpha' beta' gamma' d d' : alpha' <= alpha -> beta' <= beta -> gamma' <= gamma ->
  cheaper (cart s v b alpha beta gamma d) (cart s v' b' alpha' beta' gamma' d').
Proof.
  intros Ha Hb Hg. split.
  - intros ph y i t Hph. cbn in Hph. assert (ph = 0)%nat as -> by lia. cbn. apply Rmult_le_compat_r; [apply Rle_0_sqr|exact Ha].
  - intros ph y last Hph. cbn in Hph. assert (ph = 0)%nat as -> by lia. cbn. apply Rplus_le_compat; [apply Rmult_le_compat_r; [apply Rle_0_sqr|exact Hb]|exact Hg].
Qed.
Lemma cart_combined s v b alpha beta gamma d : combined alpha beta (fun _ => gamma) (cart s v b 1 0 0 d) (cart s v b 0 1 0 d) (cart s v b alpha beta gamma d).
Proof.
  split.
  - intros ph y i t Hph. cbn in Hph. assert (ph = 0)%nat as -> by lia. cbn. nred. ring.
  - intros ph y last Hph. cbn in Hph. assert (ph = 0)%nat as -> by lia. cbn. nred. ring.
Qed.
Lemma ext_Fin (a b : R) : a = b -> @Fin R a = Fin b.
Proof. now intros ->. Qed.
Lemma cart_later s v b alpha beta gamma d : later s (cart 0 v b alpha beta gamma d) (cart s v b alpha beta gamma d).
Proof.
  constructor; try reflexivity.
  - apply cart_same.
  - intros ph f f' x u t a H H'. one ph H. cbn in H'. injection H' as <-. cbn. do 3 f_equal. nred. ring.
  - intros ph f f' x u t a H H'. one ph H. cbn in H'. injection H' as <-. reflexivity.
  - intros ph f f' x u t a H H'. one ph H. cbn in H'. injection H' as <-. reflexivity.
  - intros ph f f' xf tf x0 t0 a H H'. one ph H. cbn in H'. injection H' as <-. cbn. do 4 f_equal. nred. ring.
  - intros ph f f' xf tf x0 t0 a H H'. one ph H. cbn in H'. injection H' as <-. reflexivity.
  - intros ph Hph. cbn in Hph. assert (ph = 0)%nat as -> by lia. split; apply ext_Fin; ring.
  - intros ph Hph. cbn in Hph. assert (ph = 0)%nat as -> by lia. split; apply ext_Fin; ring.
Qed.

(** ** a feasible point on every mesh of order 3 and more *)
Definition rolling (s : R) : ptraj :=
  Ptraj (fun i => match i with O => [3 * s * s + 2 * s * s * s; - 6 * s - 6 * s * s; 3 + 6 * s; - 2] | _ => [- 6 * s - 6 * s * s; 6 + 12 * s; - 6] end)
        (fun _ => [6 + 11 * s; - 11]) s (s + 1) (fun _ => 0).
Lemma rolling_solves s alpha beta gamma : solves (cart s 4 50 alpha beta gamma false) 0 (rolling s).
Proof.
  constructor; cbn [rolling p_t0 p_tf p_x p_u p_a].
  - lra.
  - intros t [|[|i]] Ht Hi; [| |cbn in Hi; lia].
    + apply (is_derive_ext (fun t => 3 * s * s + 2 * s * s * s + (- 6 * s - 6 * s * s) * t + (3 + 6 * s) * (t * t) - 2 * (t * t * t))); [intros x; cbn; ring|].
      auto_derive; [exact I|]. cbn. ring.
    + apply (is_derive_ext (fun t => - 6 * s - 6 * s * s + (6 + 12 * s) * t - 6 * (t * t))); [intros x; cbn; ring|].
      auto_derive; [exact I|]. cbn. ring.
  - intros t x Ht [<-|[]]. set (w := (t - s) * (1 - (t - s))).
    assert (A : 0 <= w <= 1 / 4) by (unfold w; split; [apply Rmult_le_pos; lra|pose proof (Rle_0_sqr (t - s - 1 / 2)); unfold Rsqr in *; lra]).
    apply Rle_trans with (36 * (w * w) - 4); [right; unfold w; cbn; nred; ring|nra].
  - intros x [<-|[<-|[]]]; cbn; nred; ring.
  - intros [|[|i]] _ Hi; [| |cbn in Hi; lia]; cbn; ring.
  - intros t i Ht Hi. assert (Et : exists w, t = w + s) by (exists (t - s); ring). destruct Et as (w & ->). assert (W : 0 <= w <= 1) by lra.
    assert (W2 : 0 <= w * w <= 1) by (split; [apply Rle_0_sqr|nra]). assert (W3 : 0 <= w * w * w <= 1) by (split; [apply Rmult_le_pos; lra|apply Rle_trans with (1 * 1); [apply Rmult_le_compat; lra|lra]]).
    destruct i as [|[|i]]; [| |cbn in Hi; lia]; cbn; split; cbn [above below]; nred.
    + apply Rle_trans with (3 * (w * w) - 2 * (w * w * w)); [lra|right; ring].
    + apply Rle_trans with (3 * (w * w) - 2 * (w * w * w)); [right; ring|lra].
    + apply Rle_trans with (6 * w - 6 * (w * w)); [lra|right; ring].
    + apply Rle_trans with (6 * w - 6 * (w * w)); [right; ring|lra].
  - intros t k Ht Hk. destruct k as [|k]; [|cbn in Hk; lia]. cbn. split; cbn [above below]; nred; lra.
  - split; cbn; lra.
  - split; cbn; lra.
  - intros i Hi. cbn in Hi. lia.
Qed.
Lemma cart_no_slopes s v b alpha beta gamma : no_slopes (cart s v b alpha beta gamma false).
Proof. intros [|[|ph]]; split; reflexivity. Qed.
Lemma cart_point s alpha beta gamma cf K orders p : let mp := Mpo (cart s 4 50 alpha beta gamma false) K orders cf in
  mpo_ok mp -> widths_ok K 1 p -> (forall q, In q orders -> (3 <= q)%nat) ->
  exists (z : list R) n, length z = (1 * nvars mp)%nat /\ nlp_at mp z p = Ok n /\ feasible n.
Proof.
  intros mp Hm Hw Hq.
  destruct (exact_thm mp cart_npath cart_nterm p (fun _ => rolling s) Hm (cart_ok s 4 50 alpha beta gamma false ltac:(lra)) (cart_scales _ _ _ _ _ _ _) Hw (cart_no_slopes _ _ _ _ _ _)) as (rs & Er & (z & Hz & Hsm) & HE).
  - intros ph Hph. cbn in Hph. assert (ph = 0)%nat as -> by lia. apply rolling_solves.
  - intros k i j H. destruct k; discriminate H.
  - intros ph _ q Hi. apply Hq in Hi. split; [intros [|[|i]] H; cbn in *; lia|intros k _; cbn; lia].
  - destruct (HE z Hz Hsm) as (n & En & Hf & _). exists z, n. split; [exact Hz|]. split; [exact En|exact Hf].
Qed.
