(** A point on a circle (examples for C93). *)
From Coq Require Import Reals Lia Lra Bool Arith String.
From Coquelicot Require Import Coquelicot.
From Coq Require Import List.
From Verif Require Import Num PyList Mat Poly Roots Colloc Ocp Transcribe Spec SpecOcp SpecHadapt SpecTrack SpecDamp NumR ListR PolyR CollocR CompR CollocThm MeshR BlockR DiscR NlpR OcpR NlpThm ScaleR CostR ConvexR TransR TrackR ExOcp ExNlp ExTail ExDeterm ExContract.
Import ListNotations.
Open Scope R_scope.

(** x' = - u y, y' = u x from (a, b), times 0 to 2 *)
Definition orbit_dyn (x u : list R) (_ : R) (_ : option (list R)) : res (list R) := Ok [- (nth 0 u 0 * nth 1 x 0); nth 0 u 0 * nth 0 x 0].
Definition orbit (a b : R) : ocp Rnum :=
  Ocp (N := Rnum) 2 1 0 1
    [orbit_dyn] [fun _ _ _ _ => Ok None] [fun _ _ _ _ _ => Ok (Some 0)]
    [fun _ _ _ _ => Ok (Some 0)] [fun _ _ _ _ _ => Ok None] []
    [1; 1] [1] [] 1 [[a; b]] [[0; 0]] [[0]] [[0]] [[0]] [[2]] [[]]
    [[NInf; NInf]] [[PInf; PInf]] [[NInf]] [[PInf]] [[]] [[]]
    [[Fin 0]] [[Fin 0]] [[Fin 2]] [[Fin 2]] [] [] [false] [Fin (-15)] [Fin 15] [false] [false].
Lemma orbit_ok a b : ocp_ok (orbit a b) (fun _ => None) (fun _ => None).
Proof.
  constructor.
  { constructor; cbn; auto; try (apply shaped1; reflexivity).
    - split; [reflexivity|]. intros H. lia.
    - split; [reflexivity|]. intros H. lia.
    - intros [|i] [|[|j]] Hi Hj; try lia; cbn; auto; lra.
    - intros [|i] [|j] Hi Hj; try lia; cbn; auto; lra.
    - intros i j Hi Hj; lia.
    - intros [|i] [|j] Hi Hj; try lia; cbn; auto; lra.
    - intros [|i] [|j] Hi Hj; try lia; cbn; auto; lra.
    - intros i j Hi Hj; lia. }
  - cbn; lia.
  - intros ph f x u t c H _ _ _. one ph H; eexists; split; reflexivity.
  - intros ph f x u t c H _ _ _. one ph H; eexists; reflexivity.
  - intros ph f xf tf y0 t0 c H _ _ _. one ph H; eexists; reflexivity.
  - intros ph f x u t c H _ _ _. one ph H; reflexivity.
  - intros ph f xf tf y0 t0 c H _ _ _. one ph H; reflexivity.
  - reflexivity.
  - reflexivity.
  - reflexivity.
  - reflexivity.
  - reflexivity.
  - intros; cbn; lia.
  - intros i j [].
  - cbn; lia.
  - cbn; intros H; lia.
Qed.
Lemma orbit_scales a b : scales_pos (orbit a b).
Proof. constructor; cbn; [intros s [<-|[<-|[]]]; lra|intros s [<-|[]]; lra|intros s []|lra]. Qed.
Definition orbit_mp (a b : R) (orders : list nat) (s : string) : mpo Rnum := Mpo (orbit a b) 2 orders (demo_cf s).
Lemma orbit_in a b orders s z : length orders = 2%nat -> (forall q, In q orders -> (1 <= q)%nat) -> In s ["LGR"; "LGL"; "CGL"]%string -> length z = nvars (orbit_mp a b orders s) ->
  input_ok (orbit_mp a b orders s) (fun _ => None) (fun _ => None) z [1 / 2; 1 / 2].
Proof.
  intros Hlen Hq Hs Hz. constructor; [|exact (orbit_ok a b)|exact (orbit_scales a b)|cbn [orbit_mp mp_ocp orbit o_nph]; rewrite Hz; symmetry; apply Nat.mul_1_l|reflexivity].
  constructor; [apply demo_cf_ok; exact Hs|exact Hlen|cbn; lia|exact Hq].
Qed.
(** the radius is kept by the equations *)
Lemma orbit_kept a b c t (u x : nat -> R) : Rsum (o_nx (orbit a b)) (fun s => (x s - 0) * nth s (rhs (orbit a b) 0 c x u t) 0) = 0.
Proof. cbn [o_nx orbit Rsum]. change (0 + (x 0%nat - 0) * - (u 0%nat * x 1%nat) + (x 1%nat - 0) * (u 0%nat * x 0%nat) = 0). ring. Qed.
Lemma orbit_damped a b c t0 tf : damped (orbit a b) 0 c t0 tf (fun _ => 0).
Proof. intros t u x _ _ _. apply Req_le, orbit_kept. Qed.
Lemma orbit_point a b orders sch (rs : list (list R)) y : length orders = 2%nat -> (forall q, In q orders -> (1 <= q)%nat) -> In sch ["LGR"; "LGL"; "CGL"]%string ->
  mapM (c_roots (demo_cf sch)) orders = Ok rs -> y_t0 y = 0 -> y_tf y = 2 -> y_x y 0 0 = a -> y_x y 0 1 = b ->
  let mp := orbit_mp a b orders sch in dynamics_ok mp rs (width mp [1 / 2; 1 / 2] 0) 0 y ->
  exists (z : list R) n, length z = nvars mp /\ same_traj mp (user_traj mp z 0) y /\ nlp_at mp z [1 / 2; 1 / 2] = Ok n /\ feasible n.
Proof.
  intros Hlen Hq Hs Er E0 E1 Ea Eb mp Hd. exists (pack mp (fun _ => y)).
  assert (Lz : length (pack mp (fun _ => y)) = nvars mp) by (rewrite length_pack; apply Nat.mul_1_l).
  assert (HS : forall ph, (ph < 1)%nat -> same_traj mp (user_traj mp (pack mp (fun _ => y)) ph) y) by (intros ph Hph; apply (pack_traj mp (fun _ => y) ph (ok_shapes _ _ _ (orbit_ok a b)) (orbit_scales a b)); exact Hph).
  destruct (nlp_like mp _ _ _ [1 / 2; 1 / 2] (fun _ => y) (orbit_in a b orders sch _ Hlen Hq Hs Lz) HS) as (rs' & n & Er' & En & _ & HF & _).
  assert (rs' = rs) as -> by (pose proof (eq_trans (eq_sym Er') Er) as X; injection X as X; exact X).
  exists n. split; [exact Lz|]. split; [exact (HS 0%nat ltac:(lia))|]. split; [exact En|]. apply HF. split; [|split].
  - intros [|ph] Hph; [|cbn in Hph; lia]. split; [|split; [|split; [|split]]].
    + intros [|i] [|[|s]] Hi Hss; try (cbn in Hss; lia); [exact Ea|exact Eb|split; exact I|split; exact I].
    + intros i [|s] Hi Hss; [|cbn in Hss; lia]; split; exact I.
    + rewrite E0. split; cbn; lra.
    + rewrite E1. split; cbn; lra.
    + intros i Hi. cbn in Hi. lia.
  - intros [|ph] Hph; [|cbn in Hph; lia]. quiet. exact Hd.
  - intros H. cbn in H. lia.
Qed.
(** an implicit Euler step; a step on the Chebyshev nodes of degree two *)
Definition swerved : utraj := Utraj (fun i s => nth s (nth i [[2; 0]; [2; 0]; [1; 1]] []) 0) (fun i _ => nth i [0; 0; 1] 0) 0 2 (fun _ => 0).
Definition flung : utraj := Utraj (fun i s => nth s (nth i [[-1; -6]; [-1; -6]; [0; -7]; [3; -6]] []) 0) (fun i _ => nth i [0; 0; 4 / 7; 4 / 3] 0) 0 2 (fun _ => 0).
Lemma orbit_half a b orders sch k y : y_t0 y = 0 -> y_tf y = 2 -> (k < 2)%nat -> let mp := orbit_mp a b orders sch in seg_h (mp_cf mp) (width mp [1 / 2; 1 / 2] 0) y k = 1 / 2.
Proof. intros E0 E1 Hk mp. unfold seg_h. rewrite E0, E1. destruct k as [|[|k]]; [unfold width; cbn; lra|unfold width; cbn; lra|lia]. Qed.
Lemma swerved_point : let mp := orbit_mp 2 0 [1; 1]%nat "LGR" in exists (z : list R) n, length z = nvars mp /\ same_traj mp (user_traj mp z 0) swerved /\ nlp_at mp z [1 / 2; 1 / 2] = Ok n /\ feasible n.
Proof.
  apply (orbit_point 2 0 [1; 1]%nat "LGR" _ swerved eq_refl ones_pos (or_introl eq_refl) roots_euler eq_refl eq_refl eq_refl eq_refl).
  intros i k j s p (q & Eq & Hj & Hw & Ei) Hs Hc. pose proof (MeshR.nth_error_lt _ _ _ Eq) as Hk. cbn in Hk. rewrite orbit_half by (reflexivity || exact Hk).
  destruct k as [|[|k]]; [| |lia]; injection Eq as <-; cbn in Ei; subst i; pose proof (seg_line p _ (nth j [-1; 1] 0) Hc) as X; refine (is_derive_ext_val _ _ _ _ _ X);
    (destruct j as [|[|j]]; [| |lia]); try (exfalso; destruct Hw; lia); (destruct s as [|[|s]]; [| |cbn in Hs; lia]); cbn; field.
Qed.
Lemma flung_point : let mp := orbit_mp (-1) (-6) [1; 2]%nat "CGL" in exists (z : list R) n, length z = nvars mp /\ same_traj mp (user_traj mp z 0) flung /\ nlp_at mp z [1 / 2; 1 / 2] = Ok n /\ feasible n.
Proof.
  apply (orbit_point (-1) (-6) [1; 2]%nat "CGL" _ flung eq_refl wide_pos (or_intror (or_intror (or_introl eq_refl))) roots_wide eq_refl eq_refl eq_refl eq_refl).
  intros i k j s p (q & Eq & Hj & Hw & Ei) Hs Hc. pose proof (MeshR.nth_error_lt _ _ _ Eq) as Hk. cbn in Hk. rewrite orbit_half by (reflexivity || exact Hk).
  destruct k as [|[|k]]; [| |lia]; injection Eq as <-; cbn in Ei; subst i.
  - pose proof (seg_line p _ (nth j [-1; 1] 0) Hc) as X. refine (is_derive_ext_val _ _ _ _ _ X). destruct j as [|[|j]]; [| |lia]; (destruct s as [|[|s]]; [| |cbn in Hs; lia]); cbn; field.
  - pose proof (seg_parab p _ (nth j [-1; 0; 1] 0) Hc) as X. refine (is_derive_ext_val _ _ _ _ _ X). destruct j as [|[|[|j]]]; [exfalso; destruct Hw; lia| | |lia]; (destruct s as [|[|s]]; [| |cbn in Hs; lia]); cbn; field.
Qed.
