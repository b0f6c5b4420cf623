(** The initial guess (proofs of C10, C20). *)
From Coq Require Import Reals Lia Lra Bool Arith String.
From Coquelicot Require Import Coquelicot.
From Coq Require Import List.
From Verif Require Import Num PyList Mat Poly Roots Colloc Ocp Transcribe Spec SpecOcp NumR ListR PolyR CollocR CompR CollocThm MeshR BlockR DiscR NlpR OcpR NlpThm.
Import ListNotations.
Open Scope R_scope.

Lemma nth_linspace (a b : R) n i : (2 <= n)%nat -> (i < n)%nat ->
  nth i (@linspace Rnum a b n) 0 = a + (b - a) * (INR i / INR (n - 1)).
Proof.
  intros Hn Hi. destruct n as [|[|n]]; try lia. unfold linspace. nred.
  replace (S (S n) - 1)%nat with (S n) by lia.
  assert (Hnz : INR (S n) <> 0) by (apply not_0_INR; lia).
  destruct (Nat.eq_dec i (S n)) as [->|Hd].
  - rewrite app_nth2; rewrite map_length, seq_length; [|lia]. rewrite Nat.sub_diag. cbn [nth]. field. exact Hnz.
  - rewrite app_nth1 by (rewrite map_length, seq_length; lia).
    match goal with |- nth _ (map ?f _) _ = _ => rewrite (nth_indep _ _ (f 0%nat)) by (rewrite map_length, seq_length; lia); rewrite (map_nth f) end.
    rewrite seq_nth by lia. rewrite Nat.add_0_l, !nofnat_R. nred. field. exact Hnz.
Qed.

Lemma shaped_at {T} (m : list (list T)) r c i : shaped m r c -> (i < r)%nat -> at_ m i = Ok (nth i m []) /\ length (nth i m []) = c.
Proof.
  intros [H1 H2] Hi. split; [apply at_ok; lia|]. apply H2. apply nth_In. lia.
Qed.
Lemma nth_lerp (a b : list R) t0 tf t s : (s < length a)%nat -> (s < length b)%nat ->
  nth s (lerp (N := Rnum) a b t0 tf t) 0 = nth s a 0 + (nth s b 0 - nth s a 0) /  (tf - t0) * (t - t0).
Proof. intros. unfold lerp. rewrite (nth_map2 _ a b s 0 0 0) by auto. reflexivity. Qed.
Lemma length_lerp (a b : list R) t0 tf t : length (lerp (N := Rnum) a b t0 tf t) = Nat.min (length a) (length b).
Proof. apply length_map2. Qed.
Lemma lerp_line (p q t0 tf : R) n i : t0 <> tf -> (2 <= n)%nat ->
  p + (q - p) /  (tf - t0) * (t0 + (tf - t0) * (INR i / INR (n - 1)) - t0) = line n p q i.
Proof. intros H Hn. unfold line. field. split; [apply not_0_INR; lia|lra]. Qed.
Lemma line_scale n a b i k : line n (a * k) (b * k) i = line n a b i * k.
Proof. unfold line. ring. Qed.

Section Guess.
Variable mp : mpo Rnum.
Let o := mp_ocp mp.
Let n := total_nodes (mp_orders mp).
Hypothesis Hmp : mpo_ok mp.
Hypothesis Hsh : shapes_ok o.

Lemma two_nodes : (2 <= n)%nat.
Proof.
  destruct Hmp as [_ Hl Hn Hp]. unfold n, total_nodes. nred.
  destruct (mp_orders mp) as [|q l] eqn:E; [cbn in Hl; lia|].
  pose proof (Hp q (or_introl eq_refl)). pose proof (offset_mono (q :: l) 1 (length (q :: l)) ltac:(cbn; lia)) as Hm.
  rewrite (offset_S (q :: l) 0 q eq_refl), offset_0 in Hm. cbn [plus] in Hm. nred. lia.
Qed.

(** the guess of one phase and what stands at every position *)
Lemma phase_guess ph : (ph < o_nph o)%nat -> exists z, init_solution_per_phase mp ph = Ok z /\ length z = nvars mp /\
  (forall i s, (i < n)%nat -> (s < o_nx o)%nat -> guess_times_differ o -> 0 < o_scale_t o ->
     nth (s * n + i) z 0 = line n (nth s (nth ph (o_x00 o) []) 0) (nth s (nth ph (o_xf0 o) []) 0) i * nth s (o_scale_x o) 0) /\
  (forall i c, (i < n)%nat -> (c < o_nu o)%nat -> guess_times_differ o -> 0 < o_scale_t o ->
     nth (n * o_nx o + i * o_nu o + c) z 0 =
       line n (nth c (nth ph (o_u00 o) []) 0) (nth c (nth ph (o_uf0 o) []) 0) i * nth c (o_scale_u o) 0) /\
  nth (n * o_nx o + n * o_nu o) z 0 = nth 0 (nth ph (o_t00 o) []) 0 * o_scale_t o /\
  nth (n * o_nx o + n * o_nu o + 1) z 0 = nth 0 (nth ph (o_tf0 o) []) 0 * o_scale_t o /\
  (forall i, (i < o_na o)%nat -> nth (n * o_nx o + n * o_nu o + 2 + i) z 0 = nth i (nth ph (o_a0 o) []) 0 * nth i (o_scale_a o) 0).
Proof.
  intros Hph. pose proof two_nodes as H2. pose proof Hsh as S. unfold init_solution_per_phase. fold o.
  destruct (shaped_at _ _ _ ph (sh_x00 _ S) Hph) as [E1 L1]. destruct (shaped_at _ _ _ ph (sh_xf0 _ S) Hph) as [E2 L2].
  destruct (shaped_at _ _ _ ph (sh_u00 _ S) Hph) as [E3 L3]. destruct (shaped_at _ _ _ ph (sh_uf0 _ S) Hph) as [E4 L4].
  destruct (shaped_at _ _ _ ph (sh_t00 _ S) Hph) as [E5 L5]. destruct (shaped_at _ _ _ ph (sh_tf0 _ S) Hph) as [E6 L6].
  destruct (shaped_at _ _ _ ph (sh_a0 _ S) Hph) as [E7 L7].
  pose proof (sh_sx _ S) as Lx. pose proof (sh_su _ S) as Lu. pose proof (sh_sa _ S) as La.
  rewrite E1, E2, E3, E4, E5, E6, E7. cbn [bind]. unfold sc. nred.
  rewrite npoints_total. fold n.
  set (t00 := nth 0 (nth ph (o_t00 o) []) 0 * o_scale_t o). set (tf0 := nth 0 (nth ph (o_tf0 o) []) 0 * o_scale_t o).
  set (X0 := map2 Rmult (nth ph (o_x00 o) []) (o_scale_x o)). set (XF := map2 Rmult (nth ph (o_xf0 o) []) (o_scale_x o)).
  set (U0 := map2 Rmult (nth ph (o_u00 o) []) (o_scale_u o)). set (UF := map2 Rmult (nth ph (o_uf0 o) []) (o_scale_u o)).
  set (grid := linspace (N := Rnum) t00 tf0 n).
  assert (LX0 : length X0 = o_nx o) by (unfold X0; rewrite length_map2; nred; lia).
  assert (LXF : length XF = o_nx o) by (unfold XF; rewrite length_map2; nred; lia).
  assert (LU0 : length U0 = o_nu o) by (unfold U0; rewrite length_map2; nred; lia).
  assert (LUF : length UF = o_nu o) by (unfold UF; rewrite length_map2; nred; lia).
  assert (Lg : length grid = n) by (apply linspace_length).
  pose (zx := flat_map (fun s => map (fun t => nth s (lerp (N := Rnum) X0 XF t00 tf0 t) 0) grid) (seq 0 (o_nx o)) : list R).
  pose (zu := flat_map (fun t => lerp (N := Rnum) U0 UF t00 tf0 t) grid : list R).
  assert (Lzx : length zx = (n * o_nx o)%nat).
  { unfold zx. rewrite (length_flat_map_const _ n).
    - rewrite seq_length. apply Nat.mul_comm.
    - intros s _. rewrite map_length. exact Lg. }
  assert (Lzu : length zu = (n * o_nu o)%nat).
  { unfold zu. rewrite (length_flat_map_const _ (o_nu o)).
    - f_equal. exact Lg.
    - intros t _. etransitivity; [apply length_lerp|]. rewrite LU0, LUF. apply Nat.min_id. }
  set (za := map2 Rmult (nth ph (o_a0 o) []) (o_scale_a o)).
  assert (Lza : length za = o_na o) by (unfold za; rewrite length_map2; nred; lia).
  assert (Hneq : guess_times_differ o -> 0 < o_scale_t o -> t00 <> tf0).
  { intros Hd Hs E. apply (Hd ph Hph). unfold t00, tf0 in E. apply (Rmult_eq_reg_r (o_scale_t o)); nred; lra. }
  exists (zx ++ zu ++ [t00; tf0] ++ za). split; [reflexivity|]. split; [|split; [|split; [|split; [|split]]]].
  - rewrite !app_length. nred. rewrite Lzx, Lzu, Lza. cbn [length]. unfold nvars. fold o n. lia.
  - intros i s Hi Hs Hd Hst. rewrite app_nth1 by (nred; rewrite Lzx; nia).
    unfold zx. rewrite (nth_flat_map_const _ n (seq 0 (o_nx o)) 0 0%nat).
    + rewrite seq_nth by auto. rewrite Nat.add_0_l.
      match goal with |- nth _ (map ?f _) _ = _ => rewrite (nth_indep _ _ (f 0)) by (rewrite map_length; nred; lia); rewrite (map_nth f) end.
      rewrite nth_lerp by (nred; lia). unfold grid. rewrite nth_linspace by lia. rewrite lerp_line by auto.
      unfold X0, XF. rewrite !(nth_map2 _ _ _ s 0 0 0) by (nred; lia). apply line_scale.
    + intros a _. rewrite map_length. exact Lg.
    + rewrite seq_length. exact Hs.
    + exact Hi.
  - intros i c Hi Hc Hd Hst. rewrite app_nth2 by (nred; rewrite Lzx; nia). rewrite app_nth1 by (nred; rewrite Lzx, Lzu; nia).
    replace (n * o_nx o + i * o_nu o + c - length zx)%nat with (i * o_nu o + c)%nat by (nred; rewrite Lzx; lia).
    unfold zu. rewrite (nth_flat_map_const _ (o_nu o) grid 0 0).
    + rewrite nth_lerp by (nred; lia). unfold grid. rewrite nth_linspace by lia. rewrite lerp_line by auto.
      unfold U0, UF. rewrite !(nth_map2 _ _ _ c 0 0 0) by (nred; lia). apply line_scale.
    + intros t _. etransitivity; [apply length_lerp|]. rewrite LU0, LUF. apply Nat.min_id.
    + nred. rewrite Lg. exact Hi.
    + exact Hc.
  - rewrite app_nth2 by (nred; rewrite Lzx; nia). rewrite app_nth2 by (nred; rewrite Lzx, Lzu; nia).
    nred. rewrite Lzx, Lzu. replace (n * o_nx o + n * o_nu o - n * o_nx o - n * o_nu o)%nat with 0%nat by lia. reflexivity.
  - rewrite app_nth2 by (nred; rewrite Lzx; nia). rewrite app_nth2 by (nred; rewrite Lzx, Lzu; nia).
    nred. rewrite Lzx, Lzu. replace (n * o_nx o + n * o_nu o + 1 - n * o_nx o - n * o_nu o)%nat with 1%nat by lia. reflexivity.
  - intros i Hi. rewrite app_nth2 by (nred; rewrite Lzx; nia). rewrite app_nth2 by (nred; rewrite Lzx, Lzu; nia).
    nred. rewrite Lzx, Lzu. replace (n * o_nx o + n * o_nu o + 2 + i - n * o_nx o - n * o_nu o)%nat with (2 + i)%nat by lia.
    cbn [app plus nth]. unfold za. etransitivity; [apply (nth_map2 _ _ _ i 0 0 0); nred; lia|]. reflexivity.
Qed.

Lemma guess_ex : exists zs, mapM (init_solution_per_phase mp) (seq 0 (o_nph o)) = Ok zs /\ length zs = o_nph o /\
  forall ph, (ph < o_nph o)%nat -> init_solution_per_phase mp ph = Ok (nth ph zs []) /\ length (nth ph zs []) = nvars mp.
Proof.
  destruct (mapM_exists (init_solution_per_phase mp) (fun ph z => True) (seq 0 (o_nph o))) as (zs & E & _).
  { intros ph Hin. apply in_seq in Hin. destruct (phase_guess ph ltac:(lia)) as (z & Ez & _). exists z. split; [exact Ez|exact I]. }
  exists zs. split; [exact E|]. destruct (mapM_inv _ _ _ E) as [Hl Hn]. rewrite seq_length in Hl. split; [exact Hl|].
  intros ph Hph. destruct (Hn ph ph) as (z & Hz & Ez).
  { rewrite (nth_error_nth' _ 0%nat) by (rewrite seq_length; auto). rewrite seq_nth by auto. reflexivity. }
  nred. rewrite (nth_error_nth _ _ [] Hz). split; [exact Ez|].
  destruct (phase_guess ph Hph) as (z' & Ez' & Hlz & _). nred. congruence.
Qed.

Lemma initial_guess : exists z, initialize_solution mp = Ok z /\ length z = (o_nph o * nvars mp)%nat /\
  forall ph, (ph < o_nph o)%nat ->
  (forall i s, (i < n)%nat -> (s < o_nx o)%nat -> guess_times_differ o -> 0 < o_scale_t o ->
     nth (ph * nvars mp + s * n + i) z 0 = line n (nth s (nth ph (o_x00 o) []) 0) (nth s (nth ph (o_xf0 o) []) 0) i * nth s (o_scale_x o) 0) /\
  (forall i c, (i < n)%nat -> (c < o_nu o)%nat -> guess_times_differ o -> 0 < o_scale_t o ->
     nth (ph * nvars mp + n * o_nx o + i * o_nu o + c) z 0 =
       line n (nth c (nth ph (o_u00 o) []) 0) (nth c (nth ph (o_uf0 o) []) 0) i * nth c (o_scale_u o) 0) /\
  nth (ph * nvars mp + n * o_nx o + n * o_nu o) z 0 = nth 0 (nth ph (o_t00 o) []) 0 * o_scale_t o /\
  nth (ph * nvars mp + n * o_nx o + n * o_nu o + 1) z 0 = nth 0 (nth ph (o_tf0 o) []) 0 * o_scale_t o /\
  (forall i, (i < o_na o)%nat -> nth (ph * nvars mp + n * o_nx o + n * o_nu o + 2 + i) z 0 = nth i (nth ph (o_a0 o) []) 0 * nth i (o_scale_a o) 0).
Proof.
  destruct guess_ex as (zs & E & Hl & Hn). exists (List.concat zs). unfold initialize_solution. fold o. rewrite E. cbn [bind].
  split; [reflexivity|].
  assert (Hall : forall a, In a zs -> length a = nvars mp).
  { intros a Ha. destruct (In_nth _ _ [] Ha) as (k & Hk & <-). apply Hn. nred. lia. }
  assert (Ec : List.concat zs = flat_map (fun a => a) zs) by (rewrite flat_map_concat_map, map_id; reflexivity).
  split.
  { nred. rewrite Ec. rewrite (length_flat_map_const _ (nvars mp)); [|exact Hall]. nred. f_equal. exact Hl. }
  intros ph Hph. destruct (phase_guess ph Hph) as (z & Ez & Hlz & A & B & C & D & F).
  destruct (Hn ph Hph) as (Ez' & _). rewrite Ez in Ez'. injection Ez' as Ezn.
  assert (Hat : forall i, (i < nvars mp)%nat -> nth (ph * nvars mp + i) (List.concat zs) 0 = nth i z 0).
  { intros i Hi. nred. rewrite Ec. rewrite (nth_flat_map_const (fun a => a) (nvars mp) zs 0 []); auto.
    - nred. rewrite <- Ezn. reflexivity.
    - nred. lia. }
  assert (Env : nvars mp = (n * o_nx o + n * o_nu o + 2 + o_na o)%nat) by reflexivity.
  repeat split; intros; nred.
  - rewrite <- Nat.add_assoc, Hat by nia. apply A; auto.
  - rewrite <- !Nat.add_assoc, Hat by nia. rewrite Nat.add_assoc. apply B; auto.
  - rewrite <- !Nat.add_assoc, Hat by nia. exact C.
  - rewrite <- !Nat.add_assoc, Hat by nia. rewrite Nat.add_assoc. exact D.
  - rewrite <- !Nat.add_assoc, Hat by nia. rewrite !Nat.add_assoc. apply F; auto.
Qed.
End Guess.

(** in the user's units *)
Lemma guess_user mp : mpo_ok mp -> shapes_ok (mp_ocp mp) -> scales_pos (mp_ocp mp) -> guess_times_differ (mp_ocp mp) ->
  exists z, initialize_solution mp = Ok z /\
  forall ph, (ph < o_nph (mp_ocp mp))%nat ->
    let o := mp_ocp mp in let n := total_nodes (mp_orders mp) in let y := user_traj mp z ph in
    (forall i s, (i < n)%nat -> (s < o_nx o)%nat ->
       y_x y i s = line n (nth s (nth ph (o_x00 o) []) 0) (nth s (nth ph (o_xf0 o) []) 0) i) /\
    ((o_nu o <= 1)%nat -> forall i c, (i < n)%nat -> (c < o_nu o)%nat ->
       y_u y i c = line n (nth c (nth ph (o_u00 o) []) 0) (nth c (nth ph (o_uf0 o) []) 0) i) /\
    y_t0 y = nth 0 (nth ph (o_t00 o) []) 0 /\ y_tf y = nth 0 (nth ph (o_tf0 o) []) 0 /\
    (forall i, (i < o_na o)%nat -> y_a y i = nth i (nth ph (o_a0 o) []) 0).
Proof.
  intros Hmp Hsh Hsc Hd. destruct (initial_guess mp Hmp Hsh) as (z & E & Hl & H). exists z. split; [exact E|].
  intros ph Hph o n y. destruct (H ph Hph) as (A & B & C & D & F). fold o n in A, B, C, D, F.
  pose proof (sp_t _ Hsc) as Ht.
  assert (Px : forall s, (s < o_nx o)%nat -> nth s (o_scale_x o) 0 <> 0).
  { intros s Hs. pose proof (sp_x _ Hsc (nth s (o_scale_x o) 0) ltac:(apply nth_In; pose proof (sh_sx _ Hsh); nred; unfold o in *; lia)). lra. }
  assert (Pu : forall s, (s < o_nu o)%nat -> nth s (o_scale_u o) 0 <> 0).
  { intros s Hs. pose proof (sp_u _ Hsc (nth s (o_scale_u o) 0) ltac:(apply nth_In; pose proof (sh_su _ Hsh); nred; unfold o in *; lia)). lra. }
  assert (Pa : forall s, (s < o_na o)%nat -> nth s (o_scale_a o) 0 <> 0).
  { intros s Hs. pose proof (sp_a _ Hsc (nth s (o_scale_a o) 0) ltac:(apply nth_In; pose proof (sh_sa _ Hsh); nred; unfold o in *; lia)). lra. }
  unfold y, user_traj. cbn [y_x y_u y_t0 y_tf y_a]. fold o n. repeat split; intros.
  - rewrite A by auto. field. auto.
  - assert (o_nu o = 1)%nat as Hu by lia. assert (c = 0)%nat by lia. subst c. specialize (B i 0%nat H1 H2 Hd Ht).
    rewrite Hu, Nat.mul_1_r, Nat.add_0_r in B. match goal with |- nth ?k _ _ / _ = _ => replace k with (ph * nvars mp + n * o_nx o + i)%nat by lia end. nred. rewrite B. field. auto.
  - nred. rewrite C. field. unfold o. nred. lra.
  - nred. rewrite D. field. unfold o. nred. lra.
  - nred. rewrite F by auto. field. auto.
Qed.
