(** Bounds of states and controls turned into path constraints (property C75). *)
From Coq Require Import Reals Lia Lra Psatz Bool Arith String.
From Coquelicot Require Import Coquelicot.
From Coq Require Import List.
From Verif Require Import Num PyList Mat Poly Roots Colloc Ocp Transcribe Spec SpecOcp SpecHadapt SpecPathBnd NumR ListR PolyR CompR MeshR BlockR DiscR NlpR NlpThm CostR ScaleR ExactR TransR.
Import ListNotations.
Open Scope R_scope.

Lemma rows_iff (f : ext R -> R -> list R) (P : ext R -> R -> Prop) (bs : list (ext R)) (xs : list R) : (forall b x, (forall c, In c (f b x) -> c <= 0) <-> P b x) -> length bs = length xs ->
  (forall c, In c (rows f bs xs) -> c <= 0) <-> (forall s, (s < length xs)%nat -> P (nth s bs NaN) (nth s xs 0)).
Proof.
  intros Hf. revert xs. induction bs as [|b bs IH]; intros [|x xs] L; try discriminate.
  - split; [intros _ s Hs; cbn in Hs; lia|intros _ c []].
  - injection L as L. specialize (IH xs L). unfold rows in *. cbn [combine flat_map fst snd]. split.
    + intros H [|s] Hs; cbn; [apply Hf; intros c Hc; apply H, in_or_app; left; exact Hc|].
      apply IH; [intros c Hc; apply H, in_or_app; right; exact Hc|cbn in Hs; lia].
    + intros H c Hc. apply in_app_or in Hc. destruct Hc as [Hc|Hc].
      * apply (proj2 (Hf b x)); [exact (H 0%nat ltac:(cbn; lia))|exact Hc].
      * apply (proj2 IH); [|exact Hc]. intros s Hs. exact (H (S s) ltac:(cbn; lia)).
Qed.
Lemma lower_iff b x : (forall c, In c (lower_row b x) -> c <= 0) <-> above b x.
Proof.
  destruct b; cbn; split; auto; try tauto; try (intros H; specialize (H 1 (or_introl eq_refl)); lra).
  - intros H. specialize (H _ (or_introl eq_refl)). lra.
  - intros H c [<-|[]]. lra.
Qed.
Lemma upper_iff b x : (forall c, In c (upper_row b x) -> c <= 0) <-> below b x.
Proof.
  destruct b; cbn; split; auto; try tauto; try (intros H; specialize (H 1 (or_introl eq_refl)); lra).
  - intros H. specialize (H _ (or_introl eq_refl)). lra.
  - intros H c [<-|[]]. lra.
Qed.
Lemma length_rows (f : ext R -> R -> list R) bs xs : (forall b x, length (f b x) = length (f b 0)) -> length bs = length xs -> length (rows f bs xs) = counted f bs.
Proof.
  intros Hf. revert xs. induction bs as [|b bs IH]; intros [|x xs] L; try discriminate; [reflexivity|]. injection L as L. unfold rows, counted in *. cbn. rewrite !app_length, (IH xs L), (Hf b x). reflexivity.
Qed.
Lemma len_lower b x : length (lower_row b x) = length (lower_row b 0).
Proof. destruct b; reflexivity. Qed.
Lemma len_upper b x : length (upper_row b x) = length (upper_row b 0).
Proof. destruct b; reflexivity. Qed.
Lemma shaped_row {T} (l : list (list T)) r c i : shaped l r c -> (i < r)%nat -> length (nth i l []) = c.
Proof. intros [A B] H. apply B, nth_In. lia. Qed.
Lemma shaped_const {T} (b : T) r c : shaped (repeat (repeat b c) r) r c.
Proof. split; [apply repeat_length|]. intros x H. apply repeat_spec in H. subst. apply repeat_length. Qed.
Lemma nth_const {T} (b d : T) r c i j : (i < r)%nat -> (j < c)%nat -> nth j (nth i (repeat (repeat b c) r) []) d = b.
Proof. intros Hi Hj. rewrite (nth_repeat_in (A := list T)) by exact Hi. apply nth_repeat_in. exact Hj. Qed.
Lemma nth_seq_map {A B} (f : nat * A -> B) (l : list A) i : nth_error (map f (combine (seq 0 (length l)) l)) i = match nth_error l i with Some a => Some (f (i, a)) | None => None end.
Proof.
  cut (forall k, nth_error (map f (combine (seq k (length l)) l)) i = match nth_error l i with Some a => Some (f ((k + i)%nat, a)) | None => None end); [intros H; exact (H 0%nat)|].
  revert i. induction l as [|a l IH]; intros [|i] k; cbn; auto; [rewrite Nat.add_0_r; reflexivity|]. rewrite IH, <- Nat.add_succ_comm. reflexivity.
Qed.

Section Paths.
Variables (o : ocp Rnum) (K : nat) (orders : list nat) (cf : ccfg Rnum) (npath nterm : nat -> option nat) (p : list R).
Let o' := paths_of_bounds o.
Let mp : mpo Rnum := Mpo o K orders cf.
Let mp' : mpo Rnum := Mpo o' K orders cf.
Hypothesis Hmp : mpo_ok mp.
Hypothesis Hok : ocp_ok o npath nterm.
Hypothesis Hsc : scales_pos o.
Hypothesis Hp : length p = (o_nph o * K)%nat.

Lemma rows_len ph (x u : list R) : (ph < o_nph o)%nat -> length x = o_nx o -> length u = o_nu o -> length (bound_rows o ph x u) =
  (counted lower_row (nth ph (o_lbx o) []) + (counted upper_row (nth ph (o_ubx o) []) + (counted lower_row (nth ph (o_lbu o) []) + counted upper_row (nth ph (o_ubu o) []))))%nat.
Proof.
  intros Hph Lx Lu. pose proof (ok_shapes _ _ _ Hok) as S. unfold bound_rows. rewrite !app_length.
  rewrite (length_rows lower_row _ x len_lower (eq_trans (shaped_row _ _ _ ph (sh_lbx _ S) Hph) (eq_sym Lx))), (length_rows upper_row _ x len_upper (eq_trans (shaped_row _ _ _ ph (sh_ubx _ S) Hph) (eq_sym Lx))).
  rewrite (length_rows lower_row _ u len_lower (eq_trans (shaped_row _ _ _ ph (sh_lbu _ S) Hph) (eq_sym Lu))), (length_rows upper_row _ u len_upper (eq_trans (shaped_row _ _ _ ph (sh_ubu _ S) Hph) (eq_sym Lu))). reflexivity.
Qed.
Lemma paths_ok : ocp_ok o' (more_paths o npath) nterm.
Proof.
  clear Hp Hmp Hsc.
  pose proof (ok_shapes _ _ _ Hok) as S. constructor; try exact (ok_nx _ _ _ Hok); try exact (ok_dyn _ _ _ Hok); try exact (ok_run _ _ _ Hok); try exact (ok_mayer _ _ _ Hok); try exact (ok_term _ _ _ Hok); try exact (ok_diff_u _ _ _ Hok);
    try exact (ok_lbdu _ _ _ Hok); try exact (ok_ubdu _ _ _ Hok); try exact (ok_midu _ _ _ Hok); try exact (ok_ducont _ _ _ Hok); try exact (ok_nu _ _ _ Hok); try exact (ok_links _ _ _ Hok); try exact (ok_links_len _ _ _ Hok); try exact (ok_links_some _ _ _ Hok).
  - destruct S. constructor; try assumption; try (apply shaped_const).
    + cbn. rewrite map_length, combine_length, seq_length. lia.
    + intros i j Hi Hj. unfold o', paths_of_bounds; cbn [o_lbx o_ubx]. rewrite !nth_const by assumption. exact I.
    + intros i j Hi Hj. unfold o', paths_of_bounds; cbn [o_lbu o_ubu]. rewrite !nth_const by assumption. exact I.
  - intros ph f x u t a Hf Lx Lu Ha. unfold o', paths_of_bounds in Hf; cbn [o_path] in Hf. rewrite nth_seq_map in Hf. destruct (nth_error (o_path o) ph) as [g|] eqn:Eg; [|discriminate Hf]. injection Hf as <-.
    assert (Hph : (ph < o_nph o)%nat) by (pose proof (nth_error_lt _ _ _ Eg) as X; rewrite (sh_path _ S) in X; exact X).
    pose proof (ok_path _ _ _ Hok ph g x u t a Eg Lx Lu Ha) as G. unfold more_paths, add_rows. cbn [fst snd].
    destruct (npath ph) as [n|].
    + destruct G as (l & -> & Ll). eexists. split; [reflexivity|]. exact (eq_trans (app_length l (bound_rows o ph x u)) (f_equal2 Nat.add Ll (rows_len ph x u Hph Lx Lu))).
    + rewrite G. eexists. split; [reflexivity|]. exact (rows_len ph x u Hph Lx Lu).
Qed.
Lemma path_val_iff ph y i t : (ph < o_nph o)%nat ->
  (forall c, In c (path_val o' ph y i t) -> c <= 0) <-> (forall c, In c (path_val o ph y i t) -> c <= 0) /\
    (forall s, (s < o_nx o)%nat -> within (bnd ph (o_lbx o) s) (bnd ph (o_ubx o) s) (y_x y i s)) /\ (forall c, (c < o_nu o)%nat -> within (bnd ph (o_lbu o) c) (bnd ph (o_ubu o) c) (y_u y i c)).
Proof.
  intros Hph. pose proof (ok_shapes _ _ _ Hok) as S. set (x := vec (o_nx o) (y_x y i)). set (u := vec (o_nu o) (y_u y i)).
  assert (Lx : length x = o_nx o) by (apply length_vec). assert (Lu : length u = o_nu o) by (apply length_vec).
  assert (E : forall c, In c (path_val o' ph y i t) <-> In c (path_val o ph y i t) \/ In c (bound_rows o ph x u)).
  { intros c. unfold path_val, o', paths_of_bounds; cbn [o_path]. rewrite nth_seq_map. destruct (nth_error (o_path o) ph) as [g|] eqn:Eg.
    2: { apply nth_error_None in Eg. pose proof (sh_path _ S) as X. clear - Eg X Hph. nred. lia. }
    assert (Ha : arg_ok o (a_of o y)) by (unfold arg_ok, a_of; destruct (Nat.eqb (o_na o) 0); [reflexivity|]; eexists; split; [reflexivity|apply length_vec]).
    pose proof (ok_path _ _ _ Hok ph g x u t (a_of o y) Eg Lx Lu Ha) as G. cbn [fst snd o_nx o_nu]. unfold add_rows.
    change (a_of (Ocp _ _ _ _ _ _ _ _ _ _ _ _ _ _ _ _ _ _ _ _ _ _ _ _ _ _ _ _ _ _ _ _ _ _ _ _ _ _) y) with (a_of o y). fold x u.
    destruct (npath ph) as [n|]; [destruct G as (l & -> & _); apply in_app_iff|rewrite G; cbn [In]; split; [intros X; right; exact X|intros [[]|X]; exact X]]. }
  pose proof (rows_iff lower_row above (nth ph (o_lbx o) []) x lower_iff (eq_trans (shaped_row _ _ _ ph (sh_lbx _ S) Hph) (eq_sym Lx))) as R1.
  pose proof (rows_iff upper_row below (nth ph (o_ubx o) []) x upper_iff (eq_trans (shaped_row _ _ _ ph (sh_ubx _ S) Hph) (eq_sym Lx))) as R2.
  pose proof (rows_iff lower_row above (nth ph (o_lbu o) []) u lower_iff (eq_trans (shaped_row _ _ _ ph (sh_lbu _ S) Hph) (eq_sym Lu))) as R3.
  pose proof (rows_iff upper_row below (nth ph (o_ubu o) []) u upper_iff (eq_trans (shaped_row _ _ _ ph (sh_ubu _ S) Hph) (eq_sym Lu))) as R4.
  assert (Nx : forall s, (s < o_nx o)%nat -> nth s x 0 = y_x y i s) by (intros s Hs; exact (BlockR.nth_vec _ _ s 0 Hs)).
  assert (Nu : forall s, (s < o_nu o)%nat -> nth s u 0 = y_u y i s) by (intros s Hs; exact (BlockR.nth_vec _ _ s 0 Hs)).
  split.
  - intros H. assert (HB : forall c, In c (bound_rows o ph x u) -> c <= 0) by (intros c Hc; apply H, E; right; exact Hc). unfold bound_rows in HB.
    split; [intros c Hc; apply H, E; left; exact Hc|]. split.
    + intros s Hs. rewrite <- (Nx s Hs). assert (Hs' : (s < length x)%nat) by (rewrite Lx; exact Hs). split.
      * apply (proj1 R1); [|exact Hs']. intros c Hc. apply HB. apply in_or_app. left. exact Hc.
      * apply (proj1 R2); [|exact Hs']. intros c Hc. apply HB. apply in_or_app. right. apply in_or_app. left. exact Hc.
    + intros s Hs. rewrite <- (Nu s Hs). assert (Hs' : (s < length u)%nat) by (rewrite Lu; exact Hs). split.
      * apply (proj1 R3); [|exact Hs']. intros c Hc. apply HB. apply in_or_app. right. apply in_or_app. right. apply in_or_app. left. exact Hc.
      * apply (proj1 R4); [|exact Hs']. intros c Hc. apply HB. apply in_or_app. right. apply in_or_app. right. apply in_or_app. right. exact Hc.
  - intros (HP & HX & HU) c Hc. apply E in Hc. destruct Hc as [Hc|Hc]; [exact (HP c Hc)|]. unfold bound_rows in Hc.
    apply in_app_or in Hc. destruct Hc as [Hc|Hc]; [|apply in_app_or in Hc; destruct Hc as [Hc|Hc]; [|apply in_app_or in Hc; destruct Hc as [Hc|Hc]]].
    + apply (proj2 R1); [|exact Hc]. intros s Hs. rewrite Lx in Hs. rewrite (Nx s Hs). apply (HX s Hs).
    + apply (proj2 R2); [|exact Hc]. intros s Hs. rewrite Lx in Hs. rewrite (Nx s Hs). apply (HX s Hs).
    + apply (proj2 R3); [|exact Hc]. intros s Hs. rewrite Lu in Hs. rewrite (Nu s Hs). apply (HU s Hs).
    + apply (proj2 R4); [|exact Hc]. intros s Hs. rewrite Lu in Hs. rewrite (Nu s Hs). apply (HU s Hs).
Qed.

Theorem paths_thm (z : list R) : length z = (o_nph o * nvars mp)%nat ->
  exists rs n n', mapM (c_roots cf) orders = Ok rs /\ nlp_at mp z p = Ok n /\ nlp_at mp' z p = Ok n' /\ n_f n' = n_f n /\
    (feasible n -> start_inside o -> feasible n') /\
    (feasible n' -> (forall ph, (ph < o_nph o)%nat -> midu_ok mp rs ph (user_traj mp z ph)) -> feasible n /\ start_inside o).
Proof.
  intros Hz. assert (Hmp' : mpo_ok mp') by (destruct Hmp; constructor; assumption). assert (Hsc' : scales_pos o') by (destruct Hsc; constructor; assumption).
  destruct (nlp_like mp npath nterm z p (user_traj mp z) (Build_input_ok _ _ _ _ _ Hmp Hok Hsc Hz Hp) (fun ph _ => same_refl _ _)) as (rs & n & Er & En & _ & Hs & Hf).
  destruct (nlp_like mp' (more_paths o npath) nterm z p (user_traj mp' z) (Build_input_ok _ _ _ _ _ Hmp' paths_ok Hsc' Hz Hp) (fun ph _ => same_refl _ _)) as (rs' & n' & Er' & En' & _ & Hs' & Hf').
  assert (rs' = rs) as -> by (pose proof (eq_trans (eq_sym Er') Er) as X; injection X as X; exact X).
  assert (Hne : orders <> []) by (intros X; pose proof (mo_nseg _ Hmp) as Y; pose proof (mo_len _ Hmp) as Z; cbn in Y, Z; subst orders; cbn in Z; lia).
  exists rs, n, n'. split; [exact Er|]. split; [exact En|]. split; [exact En'|]. split; [exact (eq_trans Hf' (eq_sym Hf))|].
  change (user_traj mp' z) with (user_traj mp z) in *. set (y := user_traj mp z) in *. clearbody y. split.
  - intros F HI. apply (proj1 Hs) in F. destruct F as (B & P & L). apply Hs'. split; [|split; [|exact L]].
    + intros ph Hph. destruct (B ph Hph) as (B1 & B2 & B3 & B4 & B5). split; [|split; [|split; [exact B3|split; [exact B4|exact B5]]]].
      * intros i s Hi Hs2. specialize (B1 i s Hi Hs2). destruct (Nat.eqb ph 0 && Nat.eqb i 0); [exact B1|]. unfold bnd, mp', o', paths_of_bounds; cbn [mp_ocp o_lbx o_ubx]. rewrite !nth_const by assumption. split; exact I.
      * intros i c Hi Hc. unfold bnd, mp', o', paths_of_bounds; cbn [mp_ocp o_lbu o_ubu]. rewrite !nth_const by assumption. split; exact I.
    + intros ph Hph. destruct (P ph Hph) as (P1 & P2 & P3 & P4 & P5 & P6). split; [exact P1|]. split; [|split; [exact P3|split; [|split; [exact P5|exact P6]]]].
      * intros i k j c Ho. revert c. apply (path_val_iff ph (y ph) i _ Hph). split; [intros c; exact (P2 i k j c Ho)|].
        destruct (B ph Hph) as (B1 & B2 & _). pose proof (owned_lt _ _ _ _ Ho) as Hi. split.
        -- intros s Hs2. specialize (B1 i s Hi Hs2). destruct (Nat.eqb ph 0 && Nat.eqb i 0) eqn:E0; [|exact B1]. apply andb_prop in E0. destruct E0 as [E0 _]. apply Nat.eqb_eq in E0. subst ph. rewrite B1. exact (HI s Hs2).
        -- intros c Hc. exact (B2 i c Hi Hc).
      * intros Hd k d j q c Eq Hj Hq Hc. unfold bnd, mp', o', paths_of_bounds; cbn [mp_ocp o_lbu o_ubu]. rewrite !nth_const by assumption. split; exact I.
  - intros F HM. apply (proj1 Hs') in F. destruct F as (B & P & L).
    assert (AL : forall ph i, (ph < o_nph o)%nat -> (i < total_nodes orders)%nat -> (forall s, (s < o_nx o)%nat -> within (bnd ph (o_lbx o) s) (bnd ph (o_ubx o) s) (y_x (y ph) i s)) /\ (forall c, (c < o_nu o)%nat -> within (bnd ph (o_lbu o) c) (bnd ph (o_ubu o) c) (y_u (y ph) i c))).
    { intros ph i Hph Hi. destruct (owned_exists orders i Hne Hi) as (k & j & Ho). destruct (P ph Hph) as (_ & P2 & _). exact (proj2 (proj1 (path_val_iff ph (y ph) i _ Hph) (fun c => P2 i k j c Ho))). }
    split.
    + apply Hs. split; [|split; [|exact L]].
      * intros ph Hph. destruct (B ph Hph) as (B1 & B2 & B3 & B4 & B5). split; [|split; [|split; [exact B3|split; [exact B4|exact B5]]]].
        -- intros i s Hi Hs2. specialize (B1 i s Hi Hs2). destruct (Nat.eqb ph 0 && Nat.eqb i 0); [exact B1|]. exact (proj1 (AL ph i Hph Hi) s Hs2).
        -- intros i c Hi Hc. exact (proj2 (AL ph i Hph Hi) c Hc).
      * intros ph Hph. destruct (P ph Hph) as (P1 & P2 & P3 & P4 & P5 & P6). split; [exact P1|]. split; [|split; [exact P3|split; [exact (HM ph Hph)|split; [exact P5|exact P6]]]].
        intros i k j c Ho. revert c. exact (proj1 (proj1 (path_val_iff ph (y ph) i _ Hph) (fun c => P2 i k j c Ho))).
    + intros s Hs2. pose proof (sh_nph _ (ok_shapes _ _ _ Hok)) as H0. assert (Hi : (0 < total_nodes orders)%nat) by (unfold total_nodes; lia).
      pose proof (proj1 (AL 0%nat 0%nat H0 Hi) s Hs2) as W. pose proof (proj1 (B 0%nat H0) 0%nat s Hi Hs2) as X. cbn [Nat.eqb andb] in X. exact (eq_ind _ (fun v => within (bnd 0 (o_lbx o) s) (bnd 0 (o_ubx o) s) v) W _ X).
Qed.
End Paths.
