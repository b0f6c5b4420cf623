(** A turning and fading point (examples for C92). *)
From Coq Require Import Reals Lia Lra Bool Arith String.
From Coquelicot Require Import Coquelicot.
From Coq Require Import List.
From Verif Require Import Num PyList Mat Poly Roots Colloc Ocp Transcribe Spec SpecOcp SpecHadapt SpecTrack SpecContract NumR ListR PolyR CollocR CompR CollocThm MeshR BlockR DiscR NlpR OcpR NlpThm ScaleR CostR ConvexR TransR TrackR ExOcp ExNlp ExTail ContractR.
Import ListNotations.
Open Scope R_scope.

(** x' = - u y - c x + v, y' = u x - c y in both phases; the state may jump between them *)
Definition spin_dyn (c : R) (x u : list R) (_ : R) (_ : option (list R)) : res (list R) :=
  Ok [- (nth 0 u 0 * nth 1 x 0) - c * nth 0 x 0 + nth 1 u 0; nth 0 u 0 * nth 0 x 0 - c * nth 1 x 0].
Definition spin (c : R) : ocp Rnum :=
  Ocp (N := Rnum) 2 2 0 2
    [spin_dyn c; spin_dyn c] [fun _ _ _ _ => Ok None; fun _ _ _ _ => Ok None]
    [fun _ _ _ _ _ => Ok (Some 0); fun _ _ _ _ _ => Ok (Some 0)]
    [fun _ _ _ _ => Ok (Some 0); fun _ _ _ _ => Ok (Some 0)]
    [fun _ _ _ _ _ => Ok None; fun _ _ _ _ _ => Ok None] [(0, 1)]%nat
    [1; 1] [1; 1] [] 1 [[0; 0]; [0; 0]] [[0; 0]; [0; 0]] [[0; 0]; [0; 0]] [[0; 0]; [0; 0]] [[0]; [1]] [[1]; [3]] [[]; []]
    [[NInf; NInf]; [NInf; NInf]] [[PInf; PInf]; [PInf; PInf]] [[NInf; NInf]; [NInf; NInf]] [[PInf; PInf]; [PInf; PInf]] [[]; []] [[]; []]
    [[Fin 0]; [Fin 1]] [[Fin 0]; [Fin 1]] [[Fin 1]; [Fin 3]] [[Fin 1]; [Fin 3]] [[NInf; NInf]] [[PInf; PInf]]
    [false; false] [Fin (-15); Fin (-15)] [Fin 15; Fin 15] [false; false] [false; false].
Lemma spin_ok c : ocp_ok (spin c) (fun _ => None) (fun _ => None).
Proof.
  constructor.
  { constructor; cbn; auto; try (apply shaped2; reflexivity).
    - split; [reflexivity|]. intros _. split; [reflexivity|]. intros r [<-|[]]; reflexivity.
    - split; [reflexivity|]. intros _. split; [reflexivity|]. intros r [<-|[]]; reflexivity.
    - intros [|[|i]] [|[|j]] Hi Hj; try lia; cbn; auto; lra.
    - intros [|[|i]] [|[|j]] Hi Hj; try lia; cbn; auto; lra.
    - intros i j Hi Hj; lia.
    - intros [|[|i]] [|j] Hi Hj; try lia; cbn; auto; lra.
    - intros [|[|i]] [|j] Hi Hj; try lia; cbn; auto; lra.
    - intros [|i] [|[|j]] Hi Hj; try lia; cbn; auto; lra. }
  - cbn; lia.
  - intros ph f x u t a H _ _ _. two ph H; eexists; split; reflexivity.
  - intros ph f x u t a H _ _ _. two ph H; eexists; reflexivity.
  - intros ph f xf tf x0 t0 a H _ _ _. two ph H; eexists; reflexivity.
  - intros ph f x u t a H _ _ _. two ph H; reflexivity.
  - intros ph f xf tf x0 t0 a H _ _ _. two ph H; reflexivity.
  - reflexivity.
  - reflexivity.
  - reflexivity.
  - reflexivity.
  - reflexivity.
  - intros; cbn; lia.
  - intros i j [H|[]]. injection H as <- <-. cbn. lia.
  - cbn. lia.
  - intros _ H. discriminate H.
Qed.
Lemma spin_scales c : scales_pos (spin c).
Proof. constructor; cbn; [intros s [<-|[<-|[]]]; lra|intros s [<-|[<-|[]]]; lra|intros s []|lra]. Qed.
Definition spin_mp (c : R) (orders : list nat) (s : string) : mpo Rnum := Mpo (spin c) 2 orders (demo_cf s).
Definition even : list R := [1 / 2; 1 / 2; 1 / 2; 1 / 2].
Lemma even_ok : widths_ok 2 2 even.
Proof. split; [reflexivity|]. intros [|[|ph]] Hph; [| |lia]; (split; [reflexivity|]; split; [intros w [<-|[<-|[]]]; lra|cbn; lra]). Qed.
Lemma spin_in c orders s z : length orders = 2%nat -> (forall q, In q orders -> (1 <= q)%nat) -> In s ["LGR"; "LGL"; "CGL"]%string -> length z = (2 * nvars (spin_mp c orders s))%nat ->
  input_ok (spin_mp c orders s) (fun _ => None) (fun _ => None) z even.
Proof.
  intros Ho Hq Hs Hz. constructor; [|exact (spin_ok c)|exact (spin_scales c)|exact Hz|reflexivity].
  constructor; [apply demo_cf_ok; exact Hs|exact Ho|cbn; lia|exact Hq].
Qed.
Lemma spin_diss c t0 tf a : 0 <= c -> dissipative (spin c) 1 a t0 tf.
Proof.
  intros Hc t u x x' _. unfold dotdiff. cbn [o_nx spin Rsum].
  change (0 + (x 0%nat - x' 0%nat) * ((- (u 0%nat * x 1%nat) - c * x 0%nat + u 1%nat) - (- (u 0%nat * x' 1%nat) - c * x' 0%nat + u 1%nat)) +
    (x 1%nat - x' 1%nat) * ((u 0%nat * x 0%nat - c * x 1%nat) - (u 0%nat * x' 0%nat - c * x' 1%nat)) <= 0).
  pose proof (Rle_0_sqr (x 0%nat - x' 0%nat)) as A. pose proof (Rle_0_sqr (x 1%nat - x' 1%nat)) as B. unfold Rsqr in *. nra.
Qed.
Lemma spin_strict t0 tf a : strictly_dissipative (spin 1) 1 a t0 tf.
Proof.
  intros t u x x' _ (s & Hs & E). unfold dotdiff. cbn [o_nx spin Rsum].
  change (0 + (x 0%nat - x' 0%nat) * ((- (u 0%nat * x 1%nat) - 1 * x 0%nat + u 1%nat) - (- (u 0%nat * x' 1%nat) - 1 * x' 0%nat + u 1%nat)) +
    (x 1%nat - x' 1%nat) * ((u 0%nat * x 0%nat - 1 * x 1%nat) - (u 0%nat * x' 0%nat - 1 * x' 1%nat)) < 0).
  assert (A : 0 < (x 0%nat - x' 0%nat) * (x 0%nat - x' 0%nat) + (x 1%nat - x' 1%nat) * (x 1%nat - x' 1%nat)).
  { pose proof (Rle_0_sqr (x 0%nat - x' 0%nat)) as A. pose proof (Rle_0_sqr (x 1%nat - x' 1%nat)) as B. unfold Rsqr in *. destruct s as [|[|s]]; [| |cbn in Hs; lia].
    - pose proof (Rsqr_pos_lt (x 0%nat - x' 0%nat) ltac:(lra)) as P. unfold Rsqr in P. lra.
    - pose proof (Rsqr_pos_lt (x 1%nat - x' 1%nat) ltac:(lra)) as P. unfold Rsqr in P. lra. }
  nra.
Qed.
(** at rest in the first phase *)
Definition spin_rest : utraj := Utraj (fun _ _ => 0) (fun _ _ => 0) 0 1 (fun _ => 0).
Lemma spin_point f orders sch (rs : list (list R)) y : length orders = 2%nat -> (forall q, In q orders -> (1 <= q)%nat) -> In sch ["LGR"; "LGL"; "CGL"]%string ->
  mapM (c_roots (demo_cf sch)) orders = Ok rs -> y_t0 y = 1 -> y_tf y = 3 -> (forall c, y_u y 0 c = 0) ->
  let mp := spin_mp f orders sch in dynamics_ok mp rs (width mp even 1) 1 y ->
  exists (z : list R) n, length z = (2 * nvars mp)%nat /\ same_traj mp (user_traj mp z 1) y /\ nlp_at mp z even = Ok n /\ feasible n.
Proof.
  intros Hlen Hq Hs Er E0 E1 Eu mp Hd. set (ys := fun ph => match ph with 0%nat => spin_rest | _ => y end). exists (pack mp ys).
  assert (Lz : length (pack mp ys) = (2 * nvars mp)%nat) by (rewrite length_pack; reflexivity).
  assert (HS : forall ph, (ph < 2)%nat -> same_traj mp (user_traj mp (pack mp ys) ph) (ys ph)) by (intros ph Hph; apply (pack_traj mp ys ph (ok_shapes _ _ _ (spin_ok f)) (spin_scales f)); exact Hph).
  pose proof (spin_in f orders sch _ Hlen Hq Hs Lz) as HI.
  destruct (nlp_like mp _ _ _ even ys HI HS) as (rs' & n & Er' & En & _ & HF & _).
  assert (rs' = rs) as -> by (pose proof (eq_trans (eq_sym Er') Er) as X; injection X as X; exact X).
  exists n. split; [exact Lz|]. split; [exact (HS 1%nat ltac:(lia))|]. split; [exact En|]. apply HF. split; [|split].
  - intros [|[|ph]] Hph; [| |cbn in Hph; lia]; (split; [|split; [|split; [|split]]]).
    + intros [|i] [|[|s]] Hi Hss; try (cbn in Hss; lia); [reflexivity|reflexivity|split; exact I|split; exact I].
    + intros i [|[|s]] Hi Hss; [| |cbn in Hss; lia]; split; exact I.
    + split; cbn; lra.
    + split; cbn; lra.
    + intros i Hi. cbn in Hi. lia.
    + intros i [|[|s]] Hi Hss; [| |cbn in Hss; lia]; split; exact I.
    + intros i [|[|s]] Hi Hss; [| |cbn in Hss; lia]; split; exact I.
    + cbn [ys]. rewrite E0. split; cbn; lra.
    + cbn [ys]. rewrite E1. split; cbn; lra.
    + intros i Hi. cbn in Hi. lia.
  - intros [|[|ph]] Hph; [| |cbn in Hph; lia]; quiet; [|exact Hd].
    intros i k j s p Hoo Hss Hc. assert (Hk : (k < length orders)%nat) by (destruct Hoo as (q & Eq & _); exact (MeshR.nth_error_lt _ _ _ Eq)).
    destruct (nth_error orders k) as [q|] eqn:Eq; [|apply nth_error_None in Eq; lia].
    assert (Hg : good_nodes (cf_tau0 (mp_cf mp)) (cf_tau1 (mp_cf mp)) q (nth k rs [])).
    { apply (rs_good mp _ _ _ even HI rs Er k q _ Eq). apply nth_error_nth'. exact (Nat.lt_le_trans _ _ _ Hk (Nat.eq_le_incl _ _ (eq_sym (rs_len mp rs Er)))). }
    assert (Z : forall x, peval p x = peval [] x).
    { intros x. destruct Hc as (L & E). apply (interp_unique (nth k rs [])); [exact (good_nodup _ _ _ _ Hg)|exact L|cbn; lia|]. intros i' Hi'. rewrite (E i' Hi'). reflexivity. }
    apply (is_derive_ext (fun _ => 0)); [intros t; symmetry; exact (Z t)|]. refine (is_derive_ext_val _ _ _ _ _ (@is_derive_const R_AbsRing R_NormedModule 0 _)).
    assert (ZZ : nth s (dyn_val (mp_ocp mp) 0 (ys 0%nat) i (seg_time (mp_cf mp) (width mp even 0) (ys 0%nat) k (nth j (nth k rs []) 0))) 0 = 0).
    { destruct s as [|[|s]]; [| |cbn in Hss; lia].
      - change (- (0 * 0) - f * 0 + 0 = 0). ring.
      - change (0 * 0 - f * 0 = 0). ring. }
    rewrite ZZ. rewrite Rmult_0_r. reflexivity.
  - intros _ [|k] i j H; cbn in H; [|destruct k; discriminate H]. injection H as <- <-. split; [|split].
    + intros [|[|s]] Hss; [| |cbn in Hss; lia]; split; exact I.
    + intros s Hss. cbn [ys]. rewrite Eu. reflexivity.
    + cbn [ys]. rewrite E0. reflexivity.
Qed.
Lemma seg_line (p : list R) ys x : interpolates p [-1; 1] ys -> is_derive (peval p) x ((ys 1%nat - ys 0%nat) / 2).
Proof.
  intros (L & E). apply (line_derive p ((ys 0%nat + ys 1%nat) / 2)). intros t. transitivity (peval [(ys 0%nat + ys 1%nat) / 2; (ys 1%nat - ys 0%nat) / 2] t); [|cbn; field].
  apply (interp_unique [-1; 1]); auto.
  - constructor; [intros [X|[]]; lra|constructor; [intros []|constructor]].
  - intros [|[|i]] Hi; [rewrite (E 0%nat) by (cbn; lia); cbn; field|rewrite (E 1%nat) by (cbn; lia); cbn; field|cbn in Hi; lia].
Qed.
Lemma seg_parab (p : list R) ys x : interpolates p [-1; 0; 1] ys -> is_derive (peval p) x ((ys 2%nat - ys 0%nat) / 2 + (ys 0%nat - 2 * ys 1%nat + ys 2%nat) * x).
Proof.
  intros (L & E). apply (is_derive_ext (fun t => ys 1%nat + (ys 2%nat - ys 0%nat) / 2 * t + (ys 0%nat - 2 * ys 1%nat + ys 2%nat) / 2 * (t * t))); [|auto_derive; [exact I|field]].
  intros t. symmetry. transitivity (peval [ys 1%nat; (ys 2%nat - ys 0%nat) / 2; (ys 0%nat - 2 * ys 1%nat + ys 2%nat) / 2] t); [|cbn; field].
  apply (interp_unique [-1; 0; 1]); auto.
  - constructor; [intros [X|[X|[]]]; lra|constructor; [intros [X|[]]; lra|constructor; [intros []|constructor]]].
  - intros [|[|[|i]]] Hi; [rewrite (E 0%nat) by (cbn; lia); cbn; field|rewrite (E 1%nat) by (cbn; lia); cbn; field|rewrite (E 2%nat) by (cbn; lia); cbn; field|cbn in Hi; lia].
Qed.
(** turning by an implicit Euler step; fading under a force; another point at rest *)
Definition turned : utraj := Utraj (fun i s => nth s (nth i [[2; 0]; [2; 0]; [1; 1]] []) 0) (fun i c => nth c (nth i [[0; 0]; [0; 0]; [1; 0]] []) 0) 1 3 (fun _ => 0).
Definition still2 : utraj := Utraj (fun _ _ => 0) (fun i c => nth c (nth i [[0; 0]; [0; 0]; [1; 0]] []) 0) 1 3 (fun _ => 0).
Definition faded : utraj := Utraj (fun i s => nth s (nth i [[2; 0]; [0; 0]; [1; 0]] []) 0) (fun i c => nth c (nth i [[0; 0]; [0; -2]; [0; 2]] []) 0) 1 3 (fun _ => 0).
Lemma spin_euler f y : y_t0 y = 1 -> y_tf y = 3 -> (forall i k j, owned [1; 1]%nat i k j -> (i < 3)%nat -> (k < 2)%nat -> i = (k + j)%nat -> (j <= 1)%nat ->
    y_x y (S k) 0 - y_x y k 0 = - (y_u y i 0 * y_x y i 1) - f * y_x y i 0 + y_u y i 1 /\ y_x y (S k) 1 - y_x y k 1 = y_u y i 0 * y_x y i 0 - f * y_x y i 1) ->
  let mp := spin_mp f [1; 1]%nat "LGR" in dynamics_ok mp [[-1; 1]; [-1; 1]] (width mp even 1) 1 y.
Proof.
  intros E0 E1 H mp i k j s p Hoo Hs Hc. pose proof Hoo as (q & Eq & Hj & _ & Ei). pose proof (MeshR.nth_error_lt _ _ _ Eq) as Hk. cbn in Hk.
  assert (q = 1)%nat as -> by (destruct k as [|[|k]]; [injection Eq as <-; reflexivity|injection Eq as <-; reflexivity|lia]).
  assert (Ok' : offset [1; 1]%nat k = k) by (destruct k as [|[|k]]; [reflexivity|reflexivity|lia]). cbn [mp_orders mp spin_mp] in Ei. rewrite Ok' in Ei.
  destruct (H i k j Hoo ltac:(lia) Hk Ei Hj) as (X & Y). unfold seg_interp in Hc. cbn [mp_orders mp spin_mp] in Hc. rewrite Ok' in Hc.
  replace (nth k [[-1; 1]; [-1; 1]] []) with [-1; 1] in Hc by (destruct k as [|[|k]]; [reflexivity|reflexivity|lia]).
  pose proof (seg_line p _ (nth j (nth k [[-1; 1]; [-1; 1]] []) 0) Hc) as D. cbn beta in D. rewrite Nat.add_0_r, Nat.add_1_r in D. refine (is_derive_ext_val _ _ _ _ _ D).
  assert (Hh : seg_h (mp_cf mp) (width mp even 1) y k = 1 / 2) by (unfold seg_h; rewrite E0, E1; destruct k as [|[|k]]; [unfold width; cbn; lra|unfold width; cbn; lra|lia]). rewrite Hh.
  destruct s as [|[|s]]; [| |cbn in Hs; lia].
  - change ((y_x y (S k) 0 - y_x y k 0) / 2 = 1 / 2 * (- (y_u y i 0 * y_x y i 1) - f * y_x y i 0 + y_u y i 1)). rewrite X. field.
  - change ((y_x y (S k) 1 - y_x y k 1) / 2 = 1 / 2 * (y_u y i 0 * y_x y i 0 - f * y_x y i 1)). rewrite Y. field.
Qed.
Lemma own_late i k j : owned [1; 1]%nat i k j -> i = (k + j)%nat -> (j <= 1)%nat -> (k < 2)%nat -> (k, j) = (0, 0)%nat \/ (k, j) = (0, 1)%nat \/ (k, j) = (1, 1)%nat.
Proof. intros (q & _ & _ & H & _) _ Hj Hk. destruct k as [|[|k]], j as [|[|j]]; auto; try lia; exfalso; destruct H; lia. Qed.
Ltac euler := apply spin_euler; [reflexivity|reflexivity|]; intros i k j Hoo Hi Hk Ei Hj; destruct (own_late _ _ _ Hoo Ei Hj Hk) as [E|[E|E]]; injection E as -> ->; subst i; split; cbn; ring.
Lemma roots_euler : mapM (c_roots (demo_cf "LGR")) [1; 1]%nat = Ok [[-1; 1]; [-1; 1]].
Proof. reflexivity. Qed.
Lemma ones_pos : forall q, In q [1; 1]%nat -> (1 <= q)%nat.
Proof. intros q [<-|[<-|[]]]; lia. Qed.
Lemma turned_point : let mp := spin_mp 0 [1; 1]%nat "LGR" in exists (z : list R) n, length z = (2 * nvars mp)%nat /\ same_traj mp (user_traj mp z 1) turned /\ nlp_at mp z even = Ok n /\ feasible n.
Proof.
  apply (spin_point 0 [1; 1]%nat "LGR" _ turned eq_refl ones_pos (or_introl eq_refl) roots_euler eq_refl eq_refl); [intros [|[|[|c]]]; reflexivity|]. euler.
Qed.
Lemma still_point : let mp := spin_mp 0 [1; 1]%nat "LGR" in exists (z : list R) n, length z = (2 * nvars mp)%nat /\ same_traj mp (user_traj mp z 1) still2 /\ nlp_at mp z even = Ok n /\ feasible n.
Proof.
  apply (spin_point 0 [1; 1]%nat "LGR" _ still2 eq_refl ones_pos (or_introl eq_refl) roots_euler eq_refl eq_refl); [intros [|[|[|c]]]; reflexivity|]. euler.
Qed.
Lemma faded_point : let mp := spin_mp 1 [1; 1]%nat "LGR" in exists (z : list R) n, length z = (2 * nvars mp)%nat /\ same_traj mp (user_traj mp z 1) faded /\ nlp_at mp z even = Ok n /\ feasible n.
Proof.
  apply (spin_point 1 [1; 1]%nat "LGR" _ faded eq_refl ones_pos (or_introl eq_refl) roots_euler eq_refl eq_refl); [intros [|[|[|c]]]; reflexivity|]. euler.
Qed.
(** turning on the Chebyshev nodes of degree two *)
Definition wide : utraj := Utraj (fun i s => nth s (nth i [[-1; -6]; [-1; -6]; [0; -7]; [3; -6]] []) 0) (fun i c => nth c (nth i [[0; 0]; [0; 0]; [4 / 7; 0]; [4 / 3; 0]] []) 0) 1 3 (fun _ => 0).
Definition still4 : utraj := Utraj (fun _ _ => 0) (fun i c => nth c (nth i [[0; 0]; [0; 0]; [4 / 7; 0]; [4 / 3; 0]] []) 0) 1 3 (fun _ => 0).
Lemma roots_wide : mapM (c_roots (demo_cf "CGL")) [1; 2]%nat = Ok [[-1; 1]; [-1; 0; 1]].
Proof.
  assert (C0 : cos (PI * 0 / 1) = 1) by (replace (PI * 0 / 1) with 0 by field; apply cos_0). assert (C1 : cos (PI * 1 / 1) = -1) by (replace (PI * 1 / 1) with PI by field; apply cos_PI).
  assert (D0 : cos (PI * 0 / 2) = 1) by (replace (PI * 0 / 2) with 0 by field; apply cos_0). assert (D1 : cos (PI * 1 / 2) = 0) by (replace (PI * 1 / 2) with (PI / 2) by field; apply cos_PI2).
  assert (D2 : cos (PI * 2 / 2) = -1) by (replace (PI * 2 / 2) with PI by field; apply cos_PI).
  change (Ok [[-1 + (1 - -1) / 2 * (cos (PI * 1 / 1) + 1); -1 + (1 - -1) / 2 * (cos (PI * 0 / 1) + 1)];
    [-1 + (1 - -1) / 2 * (cos (PI * 2 / 2) + 1); -1 + (1 - -1) / 2 * (cos (PI * 1 / 2) + 1); -1 + (1 - -1) / 2 * (cos (PI * 0 / 2) + 1)]] = Ok [[-1; 1]; [-1; 0; 1]]).
  rewrite C0, C1, D0, D1, D2. f_equal. repeat (f_equal; try field).
Qed.
Lemma wide_pos : forall q, In q [1; 2]%nat -> (1 <= q)%nat.
Proof. intros q [<-|[<-|[]]]; lia. Qed.
Lemma spin_wide y : y_t0 y = 1 -> y_tf y = 3 -> (forall i, (i < 4)%nat -> y_u y i 1 = 0) -> y_u y 0 0 = 0 -> y_u y 1 0 = 0 -> (forall s, (s < 2)%nat -> y_x y 1 s = y_x y 0 s) ->
  y_x y 3 0 - y_x y 1 0 = - (y_u y 2 0 * y_x y 2 1) -> y_x y 3 1 - y_x y 1 1 = y_u y 2 0 * y_x y 2 0 ->
  y_x y 1 0 - 4 * y_x y 2 0 + 3 * y_x y 3 0 = - (y_u y 3 0 * y_x y 3 1) -> y_x y 1 1 - 4 * y_x y 2 1 + 3 * y_x y 3 1 = y_u y 3 0 * y_x y 3 0 ->
  let mp := spin_mp 0 [1; 2]%nat "CGL" in dynamics_ok mp [[-1; 1]; [-1; 0; 1]] (width mp even 1) 1 y.
Proof.
  intros E0 E1 V U0 U1 X1 A B C D mp i k j s p (q & Eq & Hj & Hw & Ei) Hs Hc.
  pose proof (MeshR.nth_error_lt _ _ _ Eq) as Hk. cbn in Hk.
  assert (Hh : seg_h (mp_cf mp) (width mp even 1) y k = 1 / 2) by (unfold seg_h; rewrite E0, E1; destruct k as [|[|k]]; [unfold width; cbn; lra|unfold width; cbn; lra|lia]). rewrite Hh. clear Hh.
  assert (G : is_derive (peval p) (nth j (nth k [[-1; 1]; [-1; 0; 1]] []) 0) (1 / 2 * match s with 0%nat => - (y_u y i 0 * y_x y i 1) - 0 * y_x y i 0 + y_u y i 1 | _ => y_u y i 0 * y_x y i 0 - 0 * y_x y i 1 end)).
  { destruct k as [|[|k]]; [| |lia].
    - injection Eq as <-. cbn in Ei. subst i. pose proof (seg_line p _ (nth j [-1; 1] 0) Hc) as X. cbn in X. refine (is_derive_ext_val _ _ _ _ _ X). cbn beta.
      rewrite (V j) by lia. assert (y_u y j 0 = 0) as -> by (destruct j as [|[|j]]; [exact U0|exact U1|lia]). rewrite (X1 s Hs). destruct s; field.
    - injection Eq as <-. cbn in Ei. subst i. pose proof (seg_parab p _ (nth j [-1; 0; 1] 0) Hc) as X. cbn in X. refine (is_derive_ext_val _ _ _ _ _ X).
      destruct j as [|[|[|j]]]; [exfalso; destruct Hw; lia| | |lia].
      + cbn [Nat.add]. rewrite (V 2%nat) by lia. destruct s as [|[|s]]; [| |cbn in Hs; lia]; cbn [nth]; lra.
      + cbn [Nat.add]. rewrite (V 3%nat) by lia. destruct s as [|[|s]]; [| |cbn in Hs; lia]; cbn [nth]; lra. }
  destruct s as [|[|s]]; [exact G|exact G|cbn in Hs; lia].
Qed.
Lemma wide_point : let mp := spin_mp 0 [1; 2]%nat "CGL" in exists (z : list R) n, length z = (2 * nvars mp)%nat /\ same_traj mp (user_traj mp z 1) wide /\ nlp_at mp z even = Ok n /\ feasible n.
Proof.
  apply (spin_point 0 [1; 2]%nat "CGL" _ wide eq_refl wide_pos (or_intror (or_intror (or_introl eq_refl))) roots_wide eq_refl eq_refl); [intros [|[|[|c]]]; reflexivity|].
  apply spin_wide; try reflexivity; try (cbn; field).
  - intros [|[|[|[|i]]]] Hi; try reflexivity. lia.
Qed.
Lemma still4_point : let mp := spin_mp 0 [1; 2]%nat "CGL" in exists (z : list R) n, length z = (2 * nvars mp)%nat /\ same_traj mp (user_traj mp z 1) still4 /\ nlp_at mp z even = Ok n /\ feasible n.
Proof.
  apply (spin_point 0 [1; 2]%nat "CGL" _ still4 eq_refl wide_pos (or_intror (or_intror (or_introl eq_refl))) roots_wide eq_refl eq_refl); [intros [|[|[|c]]]; reflexivity|].
  apply spin_wide; try reflexivity; try (cbn; field).
  - intros [|[|[|[|i]]]] Hi; try reflexivity. lia.
Qed.
