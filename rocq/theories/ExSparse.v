(** Points that differ in a few places (examples for C91). *)
From Coq Require Import Reals Lia Lra Bool Arith String.
From Coquelicot Require Import Coquelicot.
From Coq Require Import List.
From Verif Require Import Num PyList Mat Poly Roots Colloc Ocp Transcribe Spec SpecOcp SpecHadapt SpecSparse NumR ListR PolyR CollocR NlpThm ScaleR ExOcp ExNlp ExDeterm ExStable SparseR.
Import ListNotations.
Open Scope R_scope.

(** x' = x + u on two segments: at rest under a force of one until time [T], but for the state [v] of the last node *)
Definition odd_one (T v : R) : utraj := Utraj (fun i _ => if Nat.eqb i 2 then v else 0) (fun _ _ => 1) 0 T (fun _ => 0).
Definition odd_z (T v : R) : list R := pack (pushed_mp 1) (fun _ => odd_one T v).
Lemma odd_len T v : length (odd_z T v) = nvars (pushed_mp 1).
Proof. unfold odd_z. rewrite length_pack. apply Nat.mul_1_l. Qed.
Lemma odd_in T v : input_ok (pushed_mp 1) (fun _ => None) (fun _ => None) (odd_z T v) [1 / 2; 1 / 2].
Proof. apply pushed_in, odd_len. Qed.
Lemma odd_traj T v : same_traj (pushed_mp 1) (user_traj (pushed_mp 1) (odd_z T v) 0) (odd_one T v).
Proof. apply (pack_traj (pushed_mp 1) (fun _ => odd_one T v) 0 (ok_shapes _ _ _ (pushed_ok 1)) (pushed_scales 1)); cbn; lia. Qed.
(** the first row *)
Lemma odd_row T v : exists n, nlp_at (pushed_mp 1) (odd_z T v) [1 / 2; 1 / 2] = Ok n /\ nth 0 (c_g (g_block (pushed_mp 1) (fun _ => None) (fun _ => None) n 0 0)) 0 = - (T / 4).
Proof.
  destruct (row_values _ _ _ _ _ (odd_in T v)) as (rs & n & Er & En & H). exists n. split; [exact En|]. injection Er as <-. destruct (H 0%nat ltac:(cbn; lia)) as (_ & HF & _).
  destruct (odd_traj T v) as (X & U & T0 & TF & _). set (y := user_traj (pushed_mp 1) (odd_z T v) 0) in *.
  assert (Hc : seg_interp [1; 1]%nat 0 [-1; 1] (fun i => y_x y i 0%nat) []).
  { split; [cbn; lia|]. intros [|[|j]] Hj; [| |cbn in Hj; lia].
    - change (0 = y_x y 0 0). rewrite (X 0%nat 0%nat ltac:(cbn; lia) ltac:(cbn; lia)). reflexivity.
    - change (0 = y_x y 1 0). rewrite (X 1%nat 0%nat ltac:(cbn; lia) ltac:(cbn; lia)). reflexivity. }
  assert (Ho : owned (mp_orders (pushed_mp 1)) 0 0 0) by (exists 1%nat; cbn; repeat split; auto).
  refine (eq_trans (HF 0%nat 0%nat 0%nat 0%nat [] ltac:(cbn; lia) Ho Hc) _).
  assert (D : forall t, Derive (peval []) t = 0) by (intros t; exact (Derive_const 0 t)). rewrite D.
  unfold seg_h. rewrite T0, TF.
  change (1 * (0 - (T - 0) * (1 / 2) / (1 - -1) * (y_x y 0 0 + y_u y 0 0)) = - (T / 4)).
  rewrite (X 0%nat 0%nat ltac:(cbn; lia) ltac:(cbn; lia)), (U 0%nat 0%nat ltac:(cbn; lia) ltac:(cbn; lia)). cbn. lra.
Qed.
