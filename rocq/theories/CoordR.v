(** Problems in other coordinates (proofs of C70). *)
From Coq Require Import Reals Lia Lra Bool Arith String.
From Coquelicot Require Import Coquelicot.
From Coq Require Import List.
From Verif Require Import Num PyList Mat Poly Roots Colloc Ocp Transcribe Spec SpecOcp SpecCoord NumR ListR PolyR CompR CollocR MeshR DiscR NlpR NlpThm CostR ScaleR ConvexR TransR.
Import ListNotations.
Open Scope R_scope.

(** ** matrices *)
Lemma lin_ext n M v v' i : (forall j, (j < n)%nat -> v j = v' j) -> lin n M v i = lin n M v' i.
Proof. intros H. apply Rsum_ext. intros j Hj. rewrite H by exact Hj. reflexivity. Qed.
Lemma lin_comp n M N v i : lin n M (lin n N v) i = Rsum n (fun j => Rsum n (fun k => M i k * N k j) * v j).
Proof.
  unfold lin. rewrite (Rsum_ext n (fun j => Rsum n (fun k => M i k * N k j) * v j) (fun j => Rsum n (fun k => M i k * N k j * v j))).
  - rewrite (Rsum_exchange n n). apply Rsum_ext. intros k Hk. rewrite <- Rsum_scal. apply Rsum_ext. intros j Hj. ring.
  - intros j Hj. rewrite Rmult_comm, <- Rsum_scal. apply Rsum_ext. intros k Hk. ring.
Qed.
Lemma lin_inv n M Mi v i : inverse n M Mi -> (i < n)%nat -> lin n M (lin n Mi v) i = v i.
Proof.
  intros H Hi. rewrite lin_comp. rewrite (Rsum_single n _ i Hi).
  - rewrite (H i i Hi Hi), Nat.eqb_refl. ring.
  - intros j Hj Hn. rewrite (H i j Hi Hj). destruct (Nat.eqb_spec i j); [congruence|ring].
Qed.
Lemma lin_inj n M Mi v v' : inverse n Mi M -> (forall i, (i < n)%nat -> lin n M v i = lin n M v' i) -> forall i, (i < n)%nat -> v i = v' i.
Proof.
  intros H E i Hi. rewrite <- (lin_inv n Mi M v i H Hi), <- (lin_inv n Mi M v' i H Hi). apply lin_ext. exact E.
Qed.
Lemma lin_minus n M v v' i : lin n M v i - lin n M v' i = lin n M (fun j => v j - v' j) i.
Proof. unfold lin. rewrite <- Rsum_minus. apply Rsum_ext. intros j Hj. ring. Qed.
Lemma lin_scal n M a v i : lin n M (fun j => a * v j) i = a * lin n M v i.
Proof. unfold lin. rewrite <- Rsum_scal. apply Rsum_ext. intros j Hj. ring. Qed.

(** ** polynomials *)
Lemma ex_der (c : list R) x : ex_derive (peval c) x.
Proof. eexists. apply dform1_derive. Qed.
Lemma poly_same roots ys ys' c c' : NoDup roots -> interpolates c roots ys -> interpolates c' roots ys' -> (forall j, (j < length roots)%nat -> ys j = ys' j) -> forall x, peval c x = peval c' x.
Proof. intros Hn [L E] [L' E'] H. apply (interp_unique roots); auto. intros k Hk. rewrite E, E', H by exact Hk. reflexivity. Qed.
Lemma comb_exists n (a : nat -> R) (b : R) m (P : nat -> list R) : (1 <= m)%nat -> (forall j, (j < n)%nat -> (length (P j) <= m)%nat) ->
  exists Q : list R, (length Q <= m)%nat /\ forall x, peval Q x = Rsum n (fun j => a j * peval (P j) x) + b.
Proof.
  intros Hm. induction n as [|n IH]; intros H; [exists [b]; split; [exact Hm|intros x; cbn; ring]|].
  destruct IH as (Q & L & E); [intros j Hj; apply H; lia|]. exists (@padd Rnum Q (@pscale Rnum (a n) (P n))). split.
  - rewrite length_padd, length_pscale. specialize (H n ltac:(lia)). lia.
  - intros x. rewrite peval_padd, peval_pscale, E. cbn [Rsum]. ring.
Qed.
Lemma poly_aff n M c0 i roots (ys : nat -> nat -> R) (P : nat -> list R) Q : NoDup roots -> (1 <= length roots)%nat ->
  (forall r, (r < n)%nat -> interpolates (P r) roots (fun j => ys j r)) -> interpolates Q roots (fun j => aff n M c0 (ys j) i) ->
  forall x, peval Q x = aff n M c0 (fun r => peval (P r) x) i.
Proof.
  intros Hn Hl HP [LQ EQ]. destruct (comb_exists n (M i) (c0 i) (length roots) P Hl) as (C & LC & EC); [intros r Hr; exact (proj1 (HP r Hr))|].
  intros x. transitivity (peval C x); [|exact (EC x)]. apply (interp_unique roots); auto. intros k Hk. rewrite EQ, EC by exact Hk. unfold aff, lin. f_equal. apply Rsum_ext. intros r Hr. rewrite (proj2 (HP r Hr) k Hk). reflexivity.
Qed.
Lemma aff_derive n M c0 i (P : nat -> list R) Q x : (forall x, peval Q x = aff n M c0 (fun r => peval (P r) x) i) ->
  Derive (peval Q) x = lin n M (fun r => Derive (peval (P r)) x) i.
Proof.
  intros H. apply is_derive_unique. apply (is_derive_ext (fun x => Rsum n (fun r => M i r * peval (P r) x) + c0 i)); [intros t; symmetry; apply H|].
  replace (lin n M (fun r => Derive (peval (P r)) x) i) with (Rsum n (fun r => M i r * Derive (peval (P r)) x) + 0) by (unfold lin; ring).
  apply (is_derive_plus (fun x => Rsum n (fun r => M i r * peval (P r) x)) (fun _ => c0 i)); [|apply (is_derive_const (K := R_AbsRing) (V := R_NormedModule))].
  apply is_derive_Rsum. intros r _. apply (is_derive_scal (peval (P r)) x (M i r)). apply Derive_correct, ex_der.
Qed.

Section Coord.
Variables (h : chart) (o o' : ocp Rnum) (K : nat) (orders : list nat) (cf : ccfg Rnum) (rs : list (list R)) (w : nat -> R).
Hypothesis Hic : in_coords h o o'.
Hypothesis Hh : chart_ok h (o_nx o) (o_nu o) (o_na o).
Hypothesis Hlen : forall k q, nth_error orders k = Some q -> length (nth k rs []) = S q.
Hypothesis Hnd : forall k q, nth_error orders k = Some q -> NoDup (nth k rs []).
Let mp := Mpo o K orders cf.
Let mp' := Mpo o' K orders cf.
Let old := in_old h (o_nx o) (o_nu o) (o_na o).

Lemma old_h y k : seg_h cf w (old y) k = c_T h * seg_h cf w y k.
Proof. unfold seg_h. cbn [old in_old y_t0 y_tf]. unfold Rdiv. ring. Qed.
Lemma old_time y k t : seg_time cf w (old y) k t = c_T h * seg_time cf w y k t + c_t h.
Proof. unfold seg_time, seg_start. rewrite old_h. cbn [old in_old y_t0 y_tf]. ring. Qed.
Lemma box_aff n lo hi v v' : (forall i, (i < n)%nat -> v i = v' i) -> box n lo hi v -> box n lo hi v'.
Proof. intros H B i Hi. rewrite <- H by exact Hi. apply B. exact Hi. Qed.
(** polynomials of all states or controls of a segment *)
Lemma seg_choice k q n (ys : nat -> nat -> R) : nth_error orders k = Some q -> exists P, forall r, (r < n)%nat -> seg_interp orders k (nth k rs []) (fun i => ys i r) (P r).
Proof.
  intros Hk. apply (CostR.finite_choice (fun r c => seg_interp orders k (nth k rs []) (fun i => ys i r) c) []). intros r _. unfold seg_interp. apply interp_exists. exact (Hnd k q Hk).
Qed.
Lemma seg_aff k q n M c0 i ys P Q : nth_error orders k = Some q -> (forall r, (r < n)%nat -> seg_interp orders k (nth k rs []) (fun i => ys i r) (P r)) ->
  seg_interp orders k (nth k rs []) (fun j => aff n M c0 (ys j) i) Q -> forall x, peval Q x = aff n M c0 (fun r => peval (P r) x) i.
Proof.
  intros Hk HP HQ. apply (poly_aff n M c0 i (nth k rs []) (fun j => ys (offset orders k + j)%nat)); [exact (Hnd k q Hk)|rewrite (Hlen k q Hk); lia|exact HP|exact HQ].
Qed.
Lemma seg_same k q ys c c' : nth_error orders k = Some q -> seg_interp orders k (nth k rs []) ys c -> seg_interp orders k (nth k rs []) ys c' -> forall x, peval c x = peval c' x.
Proof. intros Hk H H'. apply (poly_same (nth k rs []) _ _ c c' (Hnd k q Hk) H H'). reflexivity. Qed.

Section Phase.
Variables (ph : nat) (y : utraj).
Hypothesis Hph : (ph < o_nph o)%nat.
Lemma coord_bounds : bounds_ok mp ph (old y) <-> bounds_ok mp' ph y.
Proof.
  pose proof (ic_nx _ _ _ Hic) as E1. pose proof (ic_nu _ _ _ Hic) as E2. pose proof (ic_na _ _ _ Hic) as E3.
  assert (S1 : (forall i s, (i < total_nodes orders)%nat -> (s < o_nx o)%nat ->
     if Nat.eqb ph 0 && Nat.eqb i 0 then y_x (old y) i s = nth s (nth 0 (o_x00 o) []) 0 else within (bnd ph (o_lbx o) s) (bnd ph (o_ubx o) s) (y_x (old y) i s)) <->
    (forall i s, (i < total_nodes orders)%nat -> (s < o_nx o)%nat ->
     if Nat.eqb ph 0 && Nat.eqb i 0 then y_x y i s = nth s (nth 0 (o_x00 o') []) 0 else within (bnd ph (o_lbx o') s) (bnd ph (o_ubx o') s) (y_x y i s))).
  { split; intros H i s Hi Hs.
    - pose proof (fun s Hs => H i s Hi Hs) as B. destruct (Nat.eqb ph 0 && Nat.eqb i 0).
      + revert s Hs. apply (lin_inj (o_nx o) (c_X h) (c_Xi h) _ _ (co_xi _ _ _ _ Hh)). intros s Hs. pose proof (B s Hs) as X. rewrite (ic_start _ _ _ Hic s Hs) in X. cbn [old in_old y_x] in X. unfold aff in X. lra.
      + exact (proj2 (ic_bx _ _ _ Hic ph (y_x y i) Hph) B s Hs).
    - pose proof (fun s Hs => H i s Hi Hs) as B. destruct (Nat.eqb ph 0 && Nat.eqb i 0).
      + rewrite (ic_start _ _ _ Hic s Hs). cbn [old in_old y_x]. unfold aff. f_equal. apply lin_ext. exact B.
      + exact (proj1 (ic_bx _ _ _ Hic ph (y_x y i) Hph) B s Hs). }
  assert (S2 : (forall i c, (i < total_nodes orders)%nat -> (c < o_nu o)%nat -> within (bnd ph (o_lbu o) c) (bnd ph (o_ubu o) c) (y_u (old y) i c)) <->
    (forall i c, (i < total_nodes orders)%nat -> (c < o_nu o)%nat -> within (bnd ph (o_lbu o') c) (bnd ph (o_ubu o') c) (y_u y i c))).
  { split; intros H i c Hi Hc; pose proof (fun c Hc => H i c Hi Hc) as B; [exact (proj2 (ic_bu _ _ _ Hic ph (y_u y i) Hph) B c Hc)|exact (proj1 (ic_bu _ _ _ Hic ph (y_u y i) Hph) B c Hc)]. }
  pose proof (ic_bt0 _ _ _ Hic ph (y_t0 y) Hph) as S3. pose proof (ic_btf _ _ _ Hic ph (y_tf y) Hph) as S4. pose proof (ic_ba _ _ _ Hic ph (y_a y) Hph) as S5.
  unfold bounds_ok. cbn [mp mp' mp_ocp mp_orders]. nred. rewrite E1, E2, E3.
  split; intros (A & B & C & D & F); (split; [apply S1; exact A|split; [apply S2; exact B|split; [apply S3; exact C|split; [apply S4; exact D|apply S5; exact F]]]]).
Qed.
Lemma coord_dynamics : dynamics_ok mp rs w ph (old y) <-> dynamics_ok mp' rs w ph y.
Proof.
  pose proof (ic_nx _ _ _ Hic) as E1.
  (* both sides at one collocation point *)
  assert (S : forall i k j q P Q, nth_error orders k = Some q -> (forall r, (r < o_nx o)%nat -> seg_interp orders k (nth k rs []) (fun i => y_x y i r) (P r)) ->
    (forall s, (s < o_nx o)%nat -> seg_interp orders k (nth k rs []) (fun i => y_x (old y) i s) (Q s)) ->
    let tau := nth j (nth k rs []) 0 in
    (forall s, (s < o_nx o)%nat -> Derive (peval (Q s)) tau = seg_h cf w (old y) k * nth s (dyn_val o ph (old y) i (seg_time cf w (old y) k tau)) 0) <->
    (forall s, (s < o_nx o)%nat -> Derive (peval (P s)) tau = seg_h cf w y k * nth s (dyn_val o' ph y i (seg_time cf w y k tau)) 0)).
  { intros i k j q P Q Hk HP HQ tau.
    assert (L : forall s, (s < o_nx o)%nat -> Derive (peval (Q s)) tau = lin (o_nx o) (c_X h) (fun r => Derive (peval (P r)) tau) s).
    { intros s Hs. apply (aff_derive _ _ (c_x h)). exact (seg_aff k q _ _ _ s _ P (Q s) Hk HP (HQ s Hs)). }
    assert (D : forall s, (s < o_nx o)%nat -> seg_h cf w (old y) k * nth s (dyn_val o ph (old y) i (seg_time cf w (old y) k tau)) 0 =
       lin (o_nx o) (c_X h) (fun r => seg_h cf w y k * nth r (dyn_val o' ph y i (seg_time cf w y k tau)) 0) s).
    { intros s Hs. rewrite lin_scal, (ic_dyn _ _ _ Hic ph y i (seg_time cf w y k tau) s Hph Hs). rewrite old_h, old_time. fold old. ring. }
    split.
    - intros H. apply (lin_inj (o_nx o) (c_X h) (c_Xi h) _ _ (co_xi _ _ _ _ Hh)). intros s Hs. rewrite <- D, <- L by exact Hs. apply H. exact Hs.
    - intros H s Hs. rewrite D, L by exact Hs. apply lin_ext. exact H. }
  unfold dynamics_ok. cbn [mp mp' mp_ocp mp_orders mp_cf]. nred. rewrite E1. split; intros H i k j s c Ho Hs Hc; pose proof Ho as (q & Hk & _).
  - destruct (seg_choice k q (o_nx o) (y_x y) Hk) as (P & HP). destruct (seg_choice k q (o_nx o) (y_x (old y)) Hk) as (Q & HQ).
    apply (is_derive_ext (peval (P s))); [exact (seg_same k q _ _ _ Hk (HP s Hs) Hc)|].
    rewrite <- (proj1 (S i k j q P Q Hk HP HQ) (fun s Hs => is_derive_unique _ _ _ (H i k j s (Q s) Ho Hs (HQ s Hs))) s Hs). apply Derive_correct, ex_der.
  - destruct (seg_choice k q (o_nx o) (y_x y) Hk) as (P & HP). destruct (seg_choice k q (o_nx o) (y_x (old y)) Hk) as (Q & HQ).
    apply (is_derive_ext (peval (Q s))); [exact (seg_same k q _ _ _ Hk (HQ s Hs) Hc)|].
    rewrite <- (proj2 (S i k j q P Q Hk HP HQ) (fun s Hs => is_derive_unique _ _ _ (H i k j s (P s) Ho Hs (HP s Hs))) s Hs). apply Derive_correct, ex_der.
Qed.
Lemma coord_path : path_ok mp rs w ph (old y) <-> path_ok mp' rs w ph y.
Proof.
  unfold path_ok. cbn [mp mp' mp_ocp mp_orders mp_cf]. split; intros H i k j c Ho; revert c.
  - apply (ic_path _ _ _ Hic ph y i _ Hph). fold old. rewrite <- old_time. intros c. exact (H i k j c Ho).
  - rewrite old_time. apply (ic_path _ _ _ Hic ph y i _ Hph). intros c. exact (H i k j c Ho).
Qed.
Lemma coord_terminal : terminal_ok mp ph (old y) <-> terminal_ok mp' ph y.
Proof. unfold terminal_ok. cbn [mp mp' mp_ocp mp_orders]. symmetry. exact (ic_term _ _ _ Hic ph y _ Hph). Qed.
(** conditions on the control polynomials: [F] is a linear functional of the polynomial's values *)
Lemma coord_slope : slope_ok mp rs ph (old y) <-> slope_ok mp' rs ph y.
Proof.
  pose proof (ic_nu _ _ _ Hic) as E2. unfold slope_ok. cbn [mp mp' mp_ocp mp_orders]. nred. rewrite E2, (ic_diff_u _ _ _ Hic ph Hph).
  assert (S : nth ph (o_diff_u o) false = true -> forall k j q P Q, nth_error orders k = Some q -> (forall r, (r < o_nu o)%nat -> seg_interp orders k (nth k rs []) (fun i => y_u y i r) (P r)) ->
    (forall s, (s < o_nu o)%nat -> seg_interp orders k (nth k rs []) (fun i => y_u (old y) i s) (Q s)) ->
    let tau := nth j (nth k rs []) 0 in
    box (o_nu o) (fun _ => nth ph (o_lbdu o') NaN) (fun _ => nth ph (o_ubdu o') NaN) (fun c => nth c (o_scale_u o') 0 * Derive (peval (P c)) tau) <->
    box (o_nu o) (fun _ => nth ph (o_lbdu o) NaN) (fun _ => nth ph (o_ubdu o) NaN) (fun c => nth c (o_scale_u o) 0 * Derive (peval (Q c)) tau)).
  { intros Hd k j q P Q Hk HP HQ tau. rewrite (ic_bdu _ _ _ Hic ph (fun c => Derive (peval (P c)) tau) Hph Hd).
    assert (L : forall s, (s < o_nu o)%nat -> Derive (peval (Q s)) tau = lin (o_nu o) (c_U h) (fun r => Derive (peval (P r)) tau) s).
    { intros s Hs. apply (aff_derive _ _ (c_u h)). exact (seg_aff k q _ _ _ s _ P (Q s) Hk HP (HQ s Hs)). }
    split; apply box_aff; intros c Hc; rewrite L by exact Hc; reflexivity. }
  split; intros H Hd i k j c p Ho Hc Hp; pose proof Ho as (q & Hk & _); destruct (seg_choice k q (o_nu o) (y_u y) Hk) as (P & HP); destruct (seg_choice k q (o_nu o) (y_u (old y)) Hk) as (Q & HQ).
  - rewrite (Derive_ext (peval p) (peval (P c))) by exact (seg_same k q _ _ _ Hk Hp (HP c Hc)).
    exact (proj2 (S Hd k j q P Q Hk HP HQ) (fun c Hc => H Hd i k j c (Q c) Ho Hc (HQ c Hc)) c Hc).
  - rewrite (Derive_ext (peval p) (peval (Q c))) by exact (seg_same k q _ _ _ Hk Hp (HQ c Hc)).
    exact (proj1 (S Hd k j q P Q Hk HP HQ) (fun c Hc => H Hd i k j c (P c) Ho Hc (HP c Hc)) c Hc).
Qed.
Lemma coord_midu : midu_ok mp rs ph (old y) <-> midu_ok mp' rs ph y.
Proof.
  pose proof (ic_nu _ _ _ Hic) as E2. unfold midu_ok. cbn [mp mp' mp_ocp mp_orders]. nred. rewrite E2, (ic_midu _ _ _ Hic ph Hph).
  assert (S : forall k x q P Q, nth_error orders k = Some q -> (forall r, (r < o_nu o)%nat -> seg_interp orders k (nth k rs []) (fun i => y_u y i r) (P r)) ->
    (forall s, (s < o_nu o)%nat -> seg_interp orders k (nth k rs []) (fun i => y_u (old y) i s) (Q s)) ->
    box (o_nu o) (bnd ph (o_lbu o')) (bnd ph (o_ubu o')) (fun c => peval (P c) x) <-> box (o_nu o) (bnd ph (o_lbu o)) (bnd ph (o_ubu o)) (fun c => peval (Q c) x)).
  { intros k x q P Q Hk HP HQ. rewrite (ic_bu _ _ _ Hic ph (fun c => peval (P c) x) Hph).
    assert (L : forall s, (s < o_nu o)%nat -> peval (Q s) x = aff (o_nu o) (c_U h) (c_u h) (fun r => peval (P r) x) s) by (intros s Hs; exact (seg_aff k q _ _ _ s _ P (Q s) Hk HP (HQ s Hs) x)).
    split; apply box_aff; intros c Hc; rewrite L by exact Hc; reflexivity. }
  split; intros H Hd k q j c p Hk Hj Hc Hp; destruct (seg_choice k q (o_nu o) (y_u y) Hk) as (P & HP); destruct (seg_choice k q (o_nu o) (y_u (old y)) Hk) as (Q & HQ).
  - rewrite (seg_same k q _ _ _ Hk Hp (HP c Hc)).
    exact (proj2 (S k _ q P Q Hk HP HQ) (fun c Hc => H Hd k q j c (Q c) Hk Hj Hc (HQ c Hc)) c Hc).
  - rewrite (seg_same k q _ _ _ Hk Hp (HQ c Hc)).
    exact (proj1 (S k _ q P Q Hk HP HQ) (fun c Hc => H Hd k q j c (P c) Hk Hj Hc (HP c Hc)) c Hc).
Qed.
Lemma coord_ducont : ducont_ok mp rs ph (old y) <-> ducont_ok mp' rs ph y.
Proof.
  pose proof (ic_nu _ _ _ Hic) as E2. unfold ducont_ok. cbn [mp mp' mp_ocp mp_orders mp_cf]. nred. rewrite E2, (ic_ducont _ _ _ Hic ph Hph).
  assert (HL : forall k q P Q x, nth_error orders k = Some q -> (forall r, (r < o_nu o)%nat -> seg_interp orders k (nth k rs []) (fun i => y_u y i r) (P r)) ->
    (forall s, (s < o_nu o)%nat -> seg_interp orders k (nth k rs []) (fun i => y_u (old y) i s) (Q s)) ->
    forall s, (s < o_nu o)%nat -> Derive (peval (Q s)) x = lin (o_nu o) (c_U h) (fun r => Derive (peval (P r)) x) s).
  { intros k q P Q x Hk HP HQ s Hs. apply (aff_derive _ _ (c_u h)). exact (seg_aff k q _ _ _ s _ P (Q s) Hk HP (HQ s Hs)). }
  assert (Hk : forall k, (k < length orders)%nat -> nth_error orders k = Some (nth k orders 0%nat)) by (intros; apply nth_error_nth'; assumption).
  split; intros H Hd k c p p' Hkl Hc Hp Hp'; pose proof (Hk k ltac:(lia)) as H1; pose proof (Hk (S k) Hkl) as H2;
    destruct (seg_choice k _ (o_nu o) (y_u y) H1) as (P & HP); destruct (seg_choice k _ (o_nu o) (y_u (old y)) H1) as (Q & HQ);
    destruct (seg_choice (S k) _ (o_nu o) (y_u y) H2) as (P' & HP'); destruct (seg_choice (S k) _ (o_nu o) (y_u (old y)) H2) as (Q' & HQ').
  - rewrite (Derive_ext (peval p) (peval (P c))) by exact (seg_same k _ _ _ _ H1 Hp (HP c Hc)). rewrite (Derive_ext (peval p') (peval (P' c))) by exact (seg_same _ _ _ _ _ H2 Hp' (HP' c Hc)).
    clear p p' Hp Hp'. revert c Hc. apply (lin_inj (o_nu o) (c_U h) (c_Ui h) _ _ (co_ui _ _ _ _ Hh)). intros c Hc.
    rewrite <- (HL k _ P Q _ H1 HP HQ c Hc), <- (HL (S k) _ P' Q' _ H2 HP' HQ' c Hc). exact (H Hd k c _ _ Hkl Hc (HQ c Hc) (HQ' c Hc)).
  - rewrite (Derive_ext (peval p) (peval (Q c))) by exact (seg_same k _ _ _ _ H1 Hp (HQ c Hc)). rewrite (Derive_ext (peval p') (peval (Q' c))) by exact (seg_same _ _ _ _ _ H2 Hp' (HQ' c Hc)).
    rewrite (HL k _ P Q _ H1 HP HQ c Hc), (HL (S k) _ P' Q' _ H2 HP' HQ' c Hc). apply lin_ext. intros r Hr. exact (H Hd k r _ _ Hkl Hr (HP r Hr) (HP' r Hr)).
Qed.
Lemma coord_phase : phase_ok mp rs w ph (old y) <-> phase_ok mp' rs w ph y.
Proof. unfold phase_ok. rewrite coord_dynamics, coord_path, coord_slope, coord_midu, coord_ducont, coord_terminal. reflexivity. Qed.
Lemma coord_cost : node_cost mp rs w ph (old y) = node_cost mp' rs w ph y.
Proof.
  unfold node_cost. cbn [mp mp' mp_ocp mp_orders mp_cf]. rewrite (ic_mayer _ _ _ Hic ph y _ Hph). fold old. f_equal. apply Rsum_ext. intros k Hk. unfold seg_cost. cbn [mp_cf mp_orders]. rewrite old_h.
  rewrite (Rmult_comm (c_T h)), Rmult_assoc. f_equal. rewrite <- Rsum_scal. apply Rsum_ext. intros j Hj. unfold run_at. cbn [mp_ocp mp_orders mp_cf].
  pose proof (ic_run _ _ _ Hic ph y (offset orders k + j) (seg_time cf w y k (nth j (nth k rs []) 0)) Hph) as X. fold old in X. rewrite <- old_time in X.
  etransitivity; [|exact (f_equal (Rmult (omega (wts cf orders) k j)) (eq_sym X))]. cbn [mp mp' mp_ocp mp_orders mp_cf]. nred. ring.
Qed.
End Phase.
Lemma coord_links ys : (forall k i j, nth_error (o_links o) k = Some (i, j) -> (i < o_nph o)%nat /\ (j < o_nph o)%nat) ->
  links_ok mp (fun ph => old (ys ph)) <-> links_ok mp' ys.
Proof.
  intros Hl. pose proof (ic_nx _ _ _ Hic) as E1. pose proof (ic_nu _ _ _ Hic) as E2. unfold links_ok, link_ok. cbn [mp mp' mp_ocp mp_orders]. nred. rewrite E1, E2, (ic_nph _ _ _ Hic), (ic_links _ _ _ Hic).
  assert (HT : 0 < c_T h) by exact (co_T _ _ _ _ Hh). set (la := (total_nodes orders - 1)%nat).
  assert (SX : forall k i j, nth_error (o_links o) k = Some (i, j) -> box (o_nx o) (bnd k (o_lbe o')) (bnd k (o_ube o')) (fun s => y_x (ys j) 0 s - y_x (ys i) la s) <->
    box (o_nx o) (bnd k (o_lbe o)) (bnd k (o_ube o)) (fun s => y_x (old (ys j)) 0 s - y_x (old (ys i)) la s)).
  { intros k i j Hk. rewrite (ic_be _ _ _ Hic k _ (nth_error_lt _ _ _ Hk)). split; apply box_aff; intros s Hs; cbn [old in_old y_x]; unfold aff; rewrite <- lin_minus; ring. }
  split; intros H Hn k i j Hk; destruct (H Hn k i j Hk) as (A & B & C); (split; [|split]).
  - intros s Hs. exact (proj2 (SX k i j Hk) A s Hs).
  - apply (lin_inj (o_nu o) (c_U h) (c_Ui h) _ _ (co_ui _ _ _ _ Hh)). intros c Hc. specialize (B c Hc). cbn [old in_old y_u] in B. unfold aff in B. nred. lra.
  - cbn [old in_old y_t0 y_tf] in C. nred. apply (Rmult_eq_reg_l (c_T h)); lra.
  - intros s Hs. exact (proj1 (SX k i j Hk) A s Hs).
  - intros c Hc. cbn [old in_old y_u]. unfold aff. f_equal. apply lin_ext. exact B.
  - cbn [old in_old y_t0 y_tf]. rewrite C. reflexivity.
Qed.
End Coord.

Theorem coord_thm (mp mp' : mpo Rnum) h npath nterm npath' nterm' z z' p : input_ok mp npath nterm z p -> input_ok mp' npath' nterm' z' p ->
  mp_nseg mp' = mp_nseg mp -> mp_orders mp' = mp_orders mp -> mp_cf mp' = mp_cf mp -> chart_ok h (o_nx (mp_ocp mp)) (o_nu (mp_ocp mp)) (o_na (mp_ocp mp)) ->
  in_coords h (mp_ocp mp) (mp_ocp mp') -> same_point h mp mp' z z' ->
  exists n n', nlp_at mp z p = Ok n /\ nlp_at mp' z' p = Ok n' /\ (feasible n <-> feasible n') /\ n_f n = n_f n'.
Proof.
  intros Hin Hin' EK Eo Ec Hh Hic Hs. destruct mp as [o K orders cf]. destruct mp' as [o' K' orders' cf']. cbn [mp_ocp mp_nseg mp_orders mp_cf] in EK, Eo, Ec, Hh, Hic. subst K' orders' cf'.
  set (mp := Mpo o K orders cf) in *. set (mp' := Mpo o' K orders cf) in *.
  destruct (nlp_like _ _ _ _ _ (fun ph => in_old h (o_nx o) (o_nu o) (o_na o) (user_traj mp' z' ph)) Hin Hs) as (rs & n & R1 & R2 & Hlen & R3 & R4).
  destruct (nlp_like _ _ _ _ _ (user_traj mp' z') Hin' (fun ph _ => same_refl _ _)) as (rs' & n' & R1' & R2' & _ & R3' & R4').
  cbn [mp mp' mp_ocp mp_orders mp_cf] in *. assert (rs' = rs) as -> by (pose proof (eq_trans (eq_sym R1') R1) as X; injection X as X; exact X).
  assert (Hnd : forall k q, nth_error orders k = Some q -> NoDup (nth k rs [])).
  { intros k q Hk. pose proof (in_mpo _ _ _ _ _ Hin) as Hm. destruct (mapM_inv _ _ _ R1) as [_ HI]. destruct (HI k q Hk) as (r & E2 & E3). rewrite (nth_error_nth _ _ _ E2).
    destruct (c_roots_good cf q (mo_cfg _ Hm)) as (r' & E4 & G); [apply (mo_pos _ Hm); exact (nth_error_In _ _ Hk)|]. assert (r' = r) as -> by (pose proof (eq_trans (eq_sym E4) E3) as X; injection X as X; exact X). exact (good_nodup _ _ _ _ G). }
  exists n, n'. split; [exact R2|]. split; [exact R2'|]. pose proof (ic_nph _ _ _ Hic) as En.
  assert (Hl : forall k i j, nth_error (o_links o) k = Some (i, j) -> (i < o_nph o)%nat /\ (j < o_nph o)%nat) by (intros k i j Hk; exact (ok_links _ _ _ (in_ocp _ _ _ _ _ Hin) i j (nth_error_In _ _ Hk))).
  split.
  - rewrite R3, R3'. pose proof (coord_links h o o' K orders cf Hic Hh (user_traj mp' z') Hl) as HL. nred. rewrite En.
    split; intros (A & B & C); (split; [|split; [|apply HL; exact C]]); intros ph Hph.
    + apply (coord_bounds h o o' K orders cf Hic Hh ph (user_traj mp' z' ph) Hph). exact (A ph Hph).
    + apply (coord_phase h o o' K orders cf rs _ Hic Hh Hlen Hnd ph (user_traj mp' z' ph) Hph). exact (B ph Hph).
    + apply (coord_bounds h o o' K orders cf Hic Hh ph (user_traj mp' z' ph) Hph). exact (A ph Hph).
    + apply (coord_phase h o o' K orders cf rs _ Hic Hh Hlen Hnd ph (user_traj mp' z' ph) Hph). exact (B ph Hph).
  - nred. rewrite R4, R4', En. apply Rsum_ext. intros ph Hph. exact (coord_cost h o o' K orders cf rs (width mp p ph) Hic ph (user_traj mp' z' ph) Hph).
Qed.

(** ** every point has one in the other coordinates *)
Definition in_new (h : chart) (nx nu na : nat) (y : utraj) : utraj :=
  Utraj (fun i => lin nx (c_Xi h) (fun s => y_x y i s - c_x h s)) (fun i => lin nu (c_Ui h) (fun s => y_u y i s - c_u h s))
    ((y_t0 y - c_t h) / c_T h) ((y_tf y - c_t h) / c_T h) (lin na (c_Ai h) (fun s => y_a y s - c_a h s)).
Lemma new_old h (mp : mpo Rnum) y : chart_ok h (o_nx (mp_ocp mp)) (o_nu (mp_ocp mp)) (o_na (mp_ocp mp)) ->
  same_traj mp y (in_old h (o_nx (mp_ocp mp)) (o_nu (mp_ocp mp)) (o_na (mp_ocp mp)) (in_new h (o_nx (mp_ocp mp)) (o_nu (mp_ocp mp)) (o_na (mp_ocp mp)) y)).
Proof.
  intros Hh. pose proof (co_T _ _ _ _ Hh) as HT. split; [|split; [|split; [|split]]]; intros; cbn [in_old in_new y_x y_u y_t0 y_tf y_a].
  - unfold aff. rewrite (lin_inv _ _ _ _ _ (co_x _ _ _ _ Hh)) by assumption. ring.
  - unfold aff. rewrite (lin_inv _ _ _ _ _ (co_u _ _ _ _ Hh)) by assumption. ring.
  - field. lra.
  - field. lra.
  - unfold aff. rewrite (lin_inv _ _ _ _ _ (co_a _ _ _ _ Hh)) by assumption. ring.
Qed.
Lemma same_old h (mp mp' : mpo Rnum) y y' : mp_orders mp' = mp_orders mp -> o_nx (mp_ocp mp') = o_nx (mp_ocp mp) -> o_nu (mp_ocp mp') = o_nu (mp_ocp mp) -> o_na (mp_ocp mp') = o_na (mp_ocp mp) ->
  same_traj mp' y y' -> same_traj mp (in_old h (o_nx (mp_ocp mp)) (o_nu (mp_ocp mp)) (o_na (mp_ocp mp)) y) (in_old h (o_nx (mp_ocp mp)) (o_nu (mp_ocp mp)) (o_na (mp_ocp mp)) y').
Proof.
  intros Eo E1 E2 E3 (A & B & C & D & F). unfold same_traj in *. rewrite Eo, E1 in A. rewrite Eo, E2 in B. rewrite E3 in F.
  split; [|split; [|split; [|split]]]; intros; cbn [in_old y_x y_u y_t0 y_tf y_a].
  - unfold aff. f_equal. apply lin_ext. intros r Hr. apply A; assumption.
  - unfold aff. f_equal. apply lin_ext. intros r Hr. apply B; assumption.
  - rewrite C. reflexivity.
  - rewrite D. reflexivity.
  - unfold aff. f_equal. apply lin_ext. intros r Hr. apply F; assumption.
Qed.
Lemma nvars_coord (mp mp' : mpo Rnum) : mp_orders mp' = mp_orders mp -> o_nx (mp_ocp mp') = o_nx (mp_ocp mp) -> o_nu (mp_ocp mp') = o_nu (mp_ocp mp) -> o_na (mp_ocp mp') = o_na (mp_ocp mp) -> nvars mp' = nvars mp.
Proof. intros Eo E1 E2 E3. unfold nvars. rewrite Eo, E1, E2, E3. reflexivity. Qed.
Lemma same_trans mp y1 y2 y3 : same_traj mp y1 y2 -> same_traj mp y2 y3 -> same_traj mp y1 y3.
Proof.
  intros (A & B & C & D & F) (A' & B' & C' & D' & F'). split; [|split; [|split; [|split]]]; intros.
  - rewrite A by assumption. apply A'; assumption.
  - rewrite B by assumption. apply B'; assumption.
  - congruence.
  - congruence.
  - rewrite F by assumption. apply F'; assumption.
Qed.
Theorem coord_exists (mp mp' : mpo Rnum) h npath nterm npath' nterm' p : mpo_ok mp -> ocp_ok (mp_ocp mp) npath nterm -> scales_pos (mp_ocp mp) ->
  ocp_ok (mp_ocp mp') npath' nterm' -> scales_pos (mp_ocp mp') -> length p = (o_nph (mp_ocp mp) * mp_nseg mp)%nat ->
  mp_nseg mp' = mp_nseg mp -> mp_orders mp' = mp_orders mp -> mp_cf mp' = mp_cf mp -> chart_ok h (o_nx (mp_ocp mp)) (o_nu (mp_ocp mp)) (o_na (mp_ocp mp)) ->
  in_coords h (mp_ocp mp) (mp_ocp mp') ->
  (forall z, input_ok mp npath nterm z p -> exists z', input_ok mp' npath' nterm' z' p /\ same_point h mp mp' z z') /\
  (forall z', input_ok mp' npath' nterm' z' p -> exists z, input_ok mp npath nterm z p /\ same_point h mp mp' z z').
Proof.
  intros Hm Hok Hsc Hok' Hsc' Hp EK Eo Ec Hh Hic. pose proof (ic_nx _ _ _ Hic) as E1. pose proof (ic_nu _ _ _ Hic) as E2. pose proof (ic_na _ _ _ Hic) as E3. pose proof (ic_nph _ _ _ Hic) as E4.
  assert (Hm' : mpo_ok mp') by (destruct Hm as [A B C D]; constructor; [rewrite Ec; exact A|rewrite Eo, EK; exact B|rewrite EK; exact C|rewrite Eo; exact D]).
  assert (Hp' : length p = (o_nph (mp_ocp mp') * mp_nseg mp')%nat) by (rewrite EK; nred; rewrite E4; exact Hp).
  split.
  - intros z Hz. set (ys := fun ph => in_new h (o_nx (mp_ocp mp)) (o_nu (mp_ocp mp)) (o_na (mp_ocp mp)) (user_traj mp z ph)). exists (pack mp' ys). split.
    + constructor; [exact Hm'|exact Hok'|exact Hsc'|apply length_pack|exact Hp'].
    + intros ph Hph. apply (same_trans _ _ _ _ (new_old h mp (user_traj mp z ph) Hh)). apply same_sym. apply (same_old h mp mp' _ _ Eo E1 E2 E3). apply (pack_traj mp' ys ph (ok_shapes _ _ _ Hok') Hsc'). nred. rewrite E4. exact Hph.
  - intros z' Hz'. set (ys := fun ph => in_old h (o_nx (mp_ocp mp)) (o_nu (mp_ocp mp)) (o_na (mp_ocp mp)) (user_traj mp' z' ph)). exists (pack mp ys). split.
    + constructor; [exact Hm|exact Hok|exact Hsc|apply length_pack|exact Hp].
    + intros ph Hph. exact (pack_traj mp ys ph (ok_shapes _ _ _ Hok) Hsc Hph).
Qed.
Theorem coord_best (mp mp' : mpo Rnum) h npath nterm npath' nterm' z z' p : input_ok mp npath nterm z p -> input_ok mp' npath' nterm' z' p ->
  mp_nseg mp' = mp_nseg mp -> mp_orders mp' = mp_orders mp -> mp_cf mp' = mp_cf mp -> chart_ok h (o_nx (mp_ocp mp)) (o_nu (mp_ocp mp)) (o_na (mp_ocp mp)) ->
  in_coords h (mp_ocp mp) (mp_ocp mp') -> same_point h mp mp' z z' ->
  best mp p z <-> best mp' p z'.
Proof.
  intros Hin Hin' EK Eo Ec Hh Hic Hs. destruct (coord_thm mp mp' h _ _ _ _ z z' p Hin Hin' EK Eo Ec Hh Hic Hs) as (n & n' & En & En' & HF & HE).
  destruct (coord_exists mp mp' h _ _ _ _ p (in_mpo _ _ _ _ _ Hin) (in_ocp _ _ _ _ _ Hin) (in_sc _ _ _ _ _ Hin) (in_ocp _ _ _ _ _ Hin') (in_sc _ _ _ _ _ Hin') (in_p _ _ _ _ _ Hin) EK Eo Ec Hh Hic) as [X1 X2].
  split; intros (m & Em & Hf & Hb).
  - assert (m = n) as -> by (pose proof (eq_trans (eq_sym Em) En) as X; injection X as X; exact X). exists n'. split; [exact En'|]. split; [apply HF; exact Hf|].
    intros z1 n1 L1 E1 F1. assert (I1 : input_ok mp' npath' nterm' z1 p) by (destruct Hin' as [A B C D F]; constructor; auto; exact (eq_trans L1 D)).
    destruct (X2 z1 I1) as (z2 & I2 & S2). destruct (coord_thm mp mp' h _ _ _ _ z2 z1 p I2 I1 EK Eo Ec Hh Hic S2) as (n2 & n1' & E2 & E1' & F2 & V2).
    assert (n1' = n1) as -> by (pose proof (eq_trans (eq_sym E1') E1) as X; injection X as X; exact X).
    pose proof (Hb z2 n2 (eq_trans (in_z _ _ _ _ _ I2) (eq_sym (in_z _ _ _ _ _ Hin))) E2 (proj2 F2 F1)) as Q. rewrite HE, V2 in Q. exact Q.
  - assert (m = n') as -> by (pose proof (eq_trans (eq_sym Em) En') as X; injection X as X; exact X). exists n. split; [exact En|]. split; [apply HF; exact Hf|].
    intros z1 n1 L1 E1 F1. assert (I1 : input_ok mp npath nterm z1 p) by (destruct Hin as [A B C D F]; constructor; auto; exact (eq_trans L1 D)).
    destruct (X1 z1 I1) as (z2 & I2 & S2). destruct (coord_thm mp mp' h _ _ _ _ z1 z2 p I1 I2 EK Eo Ec Hh Hic S2) as (n1' & n2 & E1' & E2 & F2 & V2).
    assert (n1' = n1) as -> by (pose proof (eq_trans (eq_sym E1') E1) as X; injection X as X; exact X).
    pose proof (Hb z2 n2 (eq_trans (in_z _ _ _ _ _ I2) (eq_sym (in_z _ _ _ _ _ Hin'))) E2 (proj1 F2 F1)) as Q. rewrite HE, V2. exact Q.
Qed.
