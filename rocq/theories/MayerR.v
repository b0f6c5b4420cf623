(** Running costs turned into states (proofs of C67). *)
From Coq Require Import Reals Lia Lra Psatz Bool Arith String.
From Coquelicot Require Import Coquelicot.
From Coq Require Import List.
From Verif Require Import Num PyList Mat Poly Roots Colloc Ocp Transcribe Assign Spec SpecOcp SpecHadapt SpecBalance SpecExact SpecConvex SpecTrans SpecMayer NumR ListR PolyR CollocR CompR CollocThm MeshR BlockR DiscR NlpR OcpR ScaleR NlpThm CostR BalanceR WeightR ChebR ExactR ConvexR TransR FillR.
Import ListNotations.
Open Scope R_scope.

Lemma vec_S n f : vec (S n) f = vec n f ++ [f n].
Proof. unfold vec. rewrite seq_S, map_app. reflexivity. Qed.
Lemma length_vec n f : length (vec n f) = n.
Proof. unfold vec. rewrite map_length, seq_length. reflexivity. Qed.
Lemma split_last n : forall x : list R, length x = S n -> x = firstn n x ++ [nth n x 0].
Proof. induction n as [|n IH]; intros [|c x] H; try discriminate H; injection H as H; cbn; [destruct x; [reflexivity|discriminate H]|]. f_equal. apply IH. exact H. Qed.

Lemma nth_end (l : list R) a n : length l = n -> nth n (l ++ [a]) 0 = a.
Proof. intros <-. apply nth_middle. Qed.
Lemma firstn_vec n f : firstn n (vec (S n) f) = vec n f.
Proof. rewrite vec_S, firstn_app, length_vec, Nat.sub_diag, firstn_all2 by (rewrite length_vec; lia). apply app_nil_r. Qed.

Section Form.
Variables (o o' : ocp Rnum) (K : nat) (orders : list nat) (cf : ccfg Rnum) (npath nterm npath' nterm' : nat -> option nat).
Let mp := Mpo o K orders cf.
Let mp' := Mpo o' K orders cf.
Hypothesis Hok : ocp_ok o npath nterm.
Hypothesis Hok' : ocp_ok o' npath' nterm'.
Hypothesis Hf : mayer_form o o'.

Lemma aof_form y : a_of o' y = a_of o y.
Proof. unfold a_of. rewrite (mf_na _ _ Hf). reflexivity. Qed.
Lemma aof_arg y : arg_ok o (a_of o y).
Proof. unfold arg_ok, a_of. destruct (Nat.eqb (o_na o) 0); [reflexivity|]. eexists; split; [reflexivity|apply length_vec]. Qed.
Lemma fn_at {T} (l : list T) ph : length l = o_nph o -> (ph < o_nph o)%nat -> exists f, nth_error l ph = Some f.
Proof. intros H Hph. destruct (nth_error l ph) eqn:E; [eauto|]. apply nth_error_None in E. lia. Qed.
Lemma dyn_form ph y i t : (ph < o_nph o)%nat -> dyn_val o' ph y i t = dyn_val o ph y i t ++ [run_val o ph y i t] /\ length (dyn_val o ph y i t) = o_nx o.
Proof.
  intros Hph. pose proof (ok_shapes _ _ _ Hok) as S. pose proof (ok_shapes _ _ _ Hok') as S'.
  destruct (fn_at _ ph (sh_dyn _ S) Hph) as (f & E). destruct (fn_at (o_dyn o') ph) as (f' & E'); [rewrite (sh_dyn _ S'); apply (mf_nph _ _ Hf)|exact Hph|]. destruct (fn_at _ ph (sh_run _ S) Hph) as (g & Eg).
  destruct (ok_dyn _ _ _ Hok ph f (vec (o_nx o) (y_x y i)) (vec (o_nu o) (y_u y i)) t (a_of o y) E (length_vec _ _) (length_vec _ _) (aof_arg y)) as (d & Ed & Ld).
  destruct (ok_run _ _ _ Hok ph g (vec (o_nx o) (y_x y i)) (vec (o_nu o) (y_u y i)) t (a_of o y) Eg (length_vec _ _) (length_vec _ _) (aof_arg y)) as (l & El).
  unfold dyn_val, run_val. rewrite E, E', Eg. rewrite Ed, El. rewrite aof_form, (mf_nx _ _ Hf), (mf_nu _ _ Hf), vec_S.
  pose proof (mf_dyn _ _ Hf ph f f' g _ (y_x y i (o_nx o)) _ t _ d l E E' Eg (length_vec _ _) Ed El) as X. nred. rewrite X. auto.
Qed.
Lemma path_form ph y i t : (ph < o_nph o)%nat -> path_val o' ph y i t = path_val o ph y i t.
Proof.
  intros Hph. pose proof (ok_shapes _ _ _ Hok) as S. pose proof (ok_shapes _ _ _ Hok') as S'.
  destruct (fn_at _ ph (sh_path _ S) Hph) as (f & E). destruct (fn_at (o_path o') ph) as (f' & E'); [rewrite (sh_path _ S'); apply (mf_nph _ _ Hf)|exact Hph|].
  unfold path_val. rewrite E, E', aof_form, (mf_nx _ _ Hf), (mf_nu _ _ Hf), vec_S. match goal with |- context [f (vec ?n ?x) ?u t ?a] => pose proof (mf_path _ _ Hf ph f f' (vec n x) (y_x y i (o_nx o)) u t a E E' (length_vec _ _)) as X end. nred. rewrite X. reflexivity.
Qed.
Lemma term_form ph y last : (ph < o_nph o)%nat -> term_val o' ph y last = term_val o ph y last.
Proof.
  intros Hph. pose proof (ok_shapes _ _ _ Hok) as S. pose proof (ok_shapes _ _ _ Hok') as S'.
  destruct (fn_at _ ph (sh_term _ S) Hph) as (f & E). destruct (fn_at (o_term o') ph) as (f' & E'); [rewrite (sh_term _ S'); apply (mf_nph _ _ Hf)|exact Hph|].
  unfold term_val. rewrite E, E', aof_form, (mf_nx _ _ Hf), !vec_S. pose proof (mf_term _ _ Hf ph f f' (vec (o_nx o) (y_x y last)) (y_x y last (o_nx o)) (y_tf y) (vec (o_nx o) (y_x y 0)) (y_x y 0 (o_nx o)) (y_t0 y) (a_of o y) E E' (length_vec _ _) (length_vec _ _)) as X. nred. rewrite X. reflexivity.
Qed.
Lemma mayer_valform ph y last : (ph < o_nph o)%nat -> mayer_val o' ph y last = mayer_val o ph y last + (y_x y last (o_nx o) - y_x y 0 (o_nx o)).
Proof.
  intros Hph. pose proof (ok_shapes _ _ _ Hok) as S. pose proof (ok_shapes _ _ _ Hok') as S'.
  destruct (fn_at _ ph (sh_mayer _ S) Hph) as (f & E). destruct (fn_at (o_mayer o') ph) as (f' & E'); [rewrite (sh_mayer _ S'); apply (mf_nph _ _ Hf)|exact Hph|].
  destruct (ok_mayer _ _ _ Hok ph f (vec (o_nx o) (y_x y last)) (y_tf y) (vec (o_nx o) (y_x y 0)) (y_t0 y) (a_of o y) E (length_vec _ _) (length_vec _ _) (aof_arg y)) as (l & El).
  unfold mayer_val. rewrite E, E', aof_form, (mf_nx _ _ Hf), !vec_S. pose proof (mf_mayer _ _ Hf ph f f' _ (y_x y last (o_nx o)) _ _ (y_x y 0 (o_nx o)) _ _ l E E' (length_vec _ _) (length_vec _ _) El) as X. nred. rewrite X, El. reflexivity.
Qed.
Lemma run_form ph y i t : run_val o' ph y i t = 0.
Proof. unfold run_val. destruct (nth_error (o_run o') ph) eqn:E; [|reflexivity]. rewrite (mf_run _ _ Hf ph _ _ _ _ _ E). reflexivity. Qed.

(** feasible motions *)
Lemma bounds_form ph y : bounds_ok mp' ph y -> bounds_ok mp ph y.
Proof.
  intros (A & B & C & D & E). unfold bounds_ok in *. cbn [mp_ocp mp_orders mp mp'] in *. nred. rewrite (mf_nx _ _ Hf), (mf_nu _ _ Hf), (mf_na _ _ Hf) in *.
  split; [|split; [|split; [|split]]].
  - intros i s Hi Hs. specialize (A i s Hi ltac:(lia)). destruct (Nat.eqb ph 0 && Nat.eqb i 0).
    + etransitivity; [exact A|exact (mf_start _ _ Hf s Hs)].
    + pose proof (mf_lbx _ _ Hf ph s Hs) as E1. pose proof (mf_ubx _ _ Hf ph s Hs) as E2. unfold bnd in *. rewrite <- E1, <- E2. exact A.
  - rewrite (mf_lbu _ _ Hf), (mf_ubu _ _ Hf) in B. exact B.
  - rewrite (mf_lbt0 _ _ Hf), (mf_ubt0 _ _ Hf) in C. exact C.
  - rewrite (mf_lbtf _ _ Hf), (mf_ubtf _ _ Hf) in D. exact D.
  - rewrite (mf_lba _ _ Hf), (mf_uba _ _ Hf) in E. exact E.
Qed.
Lemma phase_form rs w ph y : (ph < o_nph o)%nat -> phase_ok mp' rs w ph y -> phase_ok mp rs w ph y.
Proof.
  intros Hph (A & B & C & D & E & F).
  split; [|split; [|split; [|split; [|split]]]]; unfold dynamics_ok, path_ok, slope_ok, midu_ok, ducont_ok, terminal_ok in *; cbn [mp_ocp mp_orders mp_cf mp mp'] in *; nred.
  - intros i k j s c Ho Hs Hc. specialize (A i k j s c Ho ltac:(rewrite (mf_nx _ _ Hf); lia) Hc).
    match type of A with context [dyn_val o' ph y i ?t] => destruct (dyn_form ph y i t Hph) as [E1 E2]; rewrite E1 in A end.
    rewrite app_nth1 in A by (nred; lia). exact A.
  - intros i k j c Ho Hc. apply (B i k j c Ho). rewrite path_form by exact Hph. exact Hc.
  - rewrite (mf_diff_u _ _ Hf), (mf_nu _ _ Hf), (mf_lbdu _ _ Hf), (mf_ubdu _ _ Hf), (mf_su _ _ Hf) in C. exact C.
  - rewrite (mf_midu _ _ Hf), (mf_nu _ _ Hf), (mf_lbu _ _ Hf), (mf_ubu _ _ Hf) in D. exact D.
  - rewrite (mf_ducont _ _ Hf), (mf_nu _ _ Hf) in E. exact E.
  - intros c Hc. apply F. rewrite term_form by exact Hph. exact Hc.
Qed.
Lemma links_form ys : links_ok mp' ys -> links_ok mp ys.
Proof.
  intros H Hn k i j Ek. unfold links_ok, link_ok in *. cbn [mp_ocp mp_orders mp mp'] in *. nred. rewrite (mf_nph _ _ Hf), (mf_links _ _ Hf), (mf_nx _ _ Hf), (mf_nu _ _ Hf) in H.
  destruct (H Hn k i j Ek) as (A & B & C). split; [|auto]. intros s Hs. specialize (A s ltac:(lia)).
  pose proof (mf_lbe _ _ Hf k s Hs) as E1. pose proof (mf_ube _ _ Hf k s Hs) as E2. unfold bnd in *. rewrite <- E1, <- E2. exact A.
Qed.

(** the problem with the new state and the old costs *)
Definition kept : ocp Rnum :=
  with_mayer (with_run o' (map (fun (g : run_fn (N := Rnum)) x u t a => g (firstn (o_nx o) x) u t a) (o_run o)))
    (map (fun (g : mayer_fn (N := Rnum)) xf tf x0 t0 a => g (firstn (o_nx o) xf) tf (firstn (o_nx o) x0) t0 a) (o_mayer o)).
Lemma arg_form a : arg_ok kept a -> arg_ok o a.
Proof. unfold arg_ok. cbn. rewrite (mf_na _ _ Hf). auto. Qed.
Lemma length_less (x : list R) : length x = S (o_nx o) -> length (firstn (o_nx o) x) = o_nx o.
Proof. intros H. rewrite firstn_length_le; lia. Qed.
Lemma kept_ok : ocp_ok kept npath' nterm'.
Proof.
  pose proof (sh_run _ (ok_shapes _ _ _ Hok)) as Hr. pose proof (sh_mayer _ (ok_shapes _ _ _ Hok)) as Hmy. pose proof (ok_run _ _ _ Hok) as Kr. pose proof (ok_mayer _ _ _ Hok) as Km.
  pose proof (mf_nx _ _ Hf) as Ex. pose proof (mf_nu _ _ Hf) as Eu. pose proof (mf_nph _ _ Hf) as Ep. destruct Hok' as [[] ].
  constructor; [constructor|..]; cbn; auto.
  - rewrite map_length, Ep. exact Hr.
  - rewrite map_length, Ep. exact Hmy.
  - intros ph f x u t a H Lx Lu La. rewrite nth_error_map in H. destruct (nth_error (o_run o) ph) as [g|] eqn:E; [|discriminate H]. injection H as <-.
    apply (Kr ph g _ _ _ _ E); [apply length_less; rewrite <- Ex; exact Lx|rewrite <- Eu; exact Lu|apply arg_form; exact La].
  - intros ph f xf tf x0 t0 a H Lx Lu La. rewrite nth_error_map in H. destruct (nth_error (o_mayer o) ph) as [g|] eqn:E; [|discriminate H]. injection H as <-.
    apply (Km ph g _ _ _ _ _ E); [apply length_less; rewrite <- Ex; exact Lx|apply length_less; rewrite <- Ex; exact Lu|apply arg_form; exact La].
Qed.
Definition last_rate (s : nat) : R := if Nat.eqb s (o_nx o) then 1 else 0.
Lemma last_sum n f : (n <= o_nx o)%nat -> Rsum n (fun s => last_rate s * f s) = 0.
Proof.
  induction n as [|n IH]; intros H; cbn [Rsum]; [reflexivity|]. rewrite IH by lia. unfold last_rate. destruct (Nat.eqb_spec n (o_nx o)); [lia|]. ring.
Qed.
Lemma kept_rate ph : (ph < o_nph o)%nat -> cost_rate kept ph last_rate 0.
Proof.
  intros Hph f g x u t a d l Ef Eg Lx Lu La Ed El. cbn in Ef, Eg, Lx, Lu. rewrite nth_error_map in Eg. destruct (nth_error (o_run o) ph) as [g0|] eqn:E; [|discriminate Eg]. injection Eg as <-.
  assert (Lx' : length x = S (o_nx o)) by (rewrite <- (mf_nx _ _ Hf); exact Lx). pose proof (length_less x Lx') as L1. pose proof (arg_form a La) as La'.
  destruct (fn_at _ ph (sh_dyn _ (ok_shapes _ _ _ Hok)) Hph) as (f0 & E0).
  assert (Lu' : length u = o_nu o) by (rewrite <- (mf_nu _ _ Hf); exact Lu).
  destruct (ok_dyn _ _ _ Hok ph f0 (firstn (o_nx o) x) u t a E0 L1 Lu' La') as (d0 & Ed0 & Ld0).
  pose proof (split_last (o_nx o) x Lx') as Ex.
  pose proof (mf_dyn _ _ Hf ph f0 f g0 _ (nth (o_nx o) x 0) u t a d0 l E0 Ef E L1 Ed0 El) as X. rewrite Ex in Ed.
  assert (d = d0 ++ [l]) as -> by (pose proof (eq_trans (eq_sym Ed) X) as Y; injection Y as Y; exact Y).
  cbn [o_nx kept with_mayer with_run]. rewrite (mf_nx _ _ Hf). cbn [Rsum]. rewrite last_sum by lia. nred. rewrite <- Ld0. rewrite (app_nth2 d0 [l]) by apply le_n. rewrite Nat.sub_diag, Ld0. unfold last_rate. rewrite Nat.eqb_refl. cbn. ring.
Qed.
Lemma kept_run ph y i t : (ph < o_nph o)%nat -> run_val kept ph y i t = run_val o ph y i t.
Proof.
  intros Hph. unfold run_val. cbn [o_run kept with_mayer with_run]. rewrite nth_error_map. destruct (nth_error (o_run o) ph); cbn [option_map]; [|reflexivity].
  cbn [o_nx o_nu kept with_mayer with_run]. change (a_of kept y) with (a_of o' y). rewrite aof_form, (mf_nx _ _ Hf), (mf_nu _ _ Hf), firstn_vec. reflexivity.
Qed.
Lemma kept_mayer ph y last : (ph < o_nph o)%nat -> mayer_val kept ph y last = mayer_val o ph y last.
Proof.
  intros Hph. unfold mayer_val. cbn [o_mayer kept with_mayer with_run]. rewrite nth_error_map. destruct (nth_error (o_mayer o) ph); cbn [option_map]; [|reflexivity].
  cbn [o_nx o_nu kept with_mayer with_run]. change (a_of kept y) with (a_of o' y). rewrite aof_form, (mf_nx _ _ Hf), !firstn_vec. reflexivity.
Qed.
End Form.

Theorem mayer_thm (mp : mpo Rnum) o' npath nterm npath' nterm' z z' p : let mp' := Mpo o' (mp_nseg mp) (mp_orders mp) (mp_cf mp) in
  input_ok mp npath nterm z p -> input_ok mp' npath' nterm' z' p -> mayer_form (mp_ocp mp) o' -> same_motion mp mp' z z' ->
  exists n n', nlp_at mp z p = Ok n /\ nlp_at mp' z' p = Ok n' /\
    (feasible n' -> feasible n /\
      (cf_scheme (mp_cf mp) = "LGR"%string /\ (forall q, In q (tl (mp_orders mp)) -> (2 <= q)%nat) \/ length (mp_orders mp) = 1%nat -> n_f n = n_f n')).
Proof.
  intros mp' Hin Hin' Hf Hs. destruct mp as [o K orders cf]. cbn [mp_ocp mp_nseg mp_orders mp_cf] in *. pose proof (in_ocp _ _ _ _ _ Hin) as Hok. pose proof (in_ocp _ _ _ _ _ Hin') as Hok'. cbn [mp_ocp mp'] in Hok, Hok'.
  set (mp2 := Mpo (kept o o') K orders cf). set (ys := user_traj mp' z') in *.
  assert (Hin2 : input_ok mp2 npath' nterm' z' p).
  { pose proof (kept_ok o o' _ _ _ _ Hok Hok' Hf) as Hk. destruct Hin' as [[M1 M2 M3 M4] I2 [S1 S2 S3 S4] I4 I5]. constructor; [constructor; assumption|exact Hk|constructor; assumption|exact I4|exact I5]. }
  destruct (nlp_like _ _ _ _ _ ys Hin Hs) as (rs & n & R1 & R2 & _ & R3 & R4).
  destruct (nlp_like _ _ _ _ _ ys Hin' (fun ph _ => same_refl _ _)) as (rs' & n' & R1' & R2' & _ & R3' & R4').
  destruct (nlp_like _ _ _ _ _ ys Hin2 (fun ph _ => same_refl _ _)) as (rs2 & n2 & Q1 & Q2 & _ & Q3 & Q4).
  cbn [mp_ocp mp_orders mp_cf mp' mp2] in *.
  assert (rs' = rs) as -> by (pose proof (eq_trans (eq_sym R1') R1) as X; injection X as X; exact X).
  assert (rs2 = rs) as -> by (pose proof (eq_trans (eq_sym Q1) R1) as X; injection X as X; exact X).
  exists n, n'. split; [exact R2|]. split; [exact R2'|]. intros Hfe. pose proof (mf_nph _ _ Hf) as En.
  assert (F2 : feasible n2) by (apply Q3; apply R3' in Hfe; exact Hfe).
  apply R3' in Hfe. destruct Hfe as (A & B & C). rewrite En in A, B. split.
  { apply R3. split; [|split].
    - intros ph Hph. apply (bounds_form o o' K orders cf Hf ph _ (A ph Hph)).
    - intros ph Hph. apply (phase_form o o' K orders cf _ _ _ _ Hok Hok' Hf rs _ ph _ Hph (B ph Hph)).
    - apply (links_form o o' K orders cf Hf ys C). }
  intros Hc.
  destruct (balance_thm mp2 npath' nterm' z' p (fun _ => last_rate o) (fun _ => 0) Hin2) as (rs3 & n3 & T1 & T2 & _ & T3).
  { intros ph Hph. cbn [mp_ocp mp2 kept with_mayer with_run o_nph] in Hph. rewrite En in Hph. exact (kept_rate o o' _ _ Hok Hf ph Hph). }
  assert (n3 = n2) as -> by (pose proof (eq_trans (eq_sym T2) Q2) as X; injection X as X; exact X).
  destruct (T3 F2) as [_ T4]. specialize (T4 Hc). nred.
  transitivity (n_f n2); [|transitivity (Rsum (o_nph (kept o o')) (fun ph => balance mp2 (width mp2 p ph) ph (user_traj mp2 z' ph) (last_rate o) 0)); [exact T4|]].
  - rewrite R4, Q4. cbn [mp_ocp mp2 kept with_mayer with_run o_nph]. rewrite En. apply Rsum_ext. intros ph Hph. unfold node_cost. cbn [mp_ocp mp2 mp_orders mp_cf].
    rewrite (kept_mayer o o' Hf ph (ys ph) _ Hph). f_equal. apply Rsum_ext. intros k _. unfold seg_cost. f_equal. apply Rsum_ext. intros j _. f_equal. unfold run_at. cbn [mp_ocp mp2 mp_orders mp_cf].
    symmetry. apply (kept_run o o' Hf). exact Hph.
  - rewrite R4'. cbn [mp_ocp mp2 kept with_mayer with_run o_nph]. rewrite En. apply Rsum_ext. intros ph Hph. unfold node_cost, balance. cbn [mp_ocp mp2 mp' mp_orders mp_cf].
    rewrite (kept_mayer o o' Hf ph _ _ Hph). rewrite (mayer_valform o o' _ _ _ _ Hok Hok' Hf ph _ _ Hph). cbn [o_nx kept with_mayer with_run]. rewrite (mf_nx _ _ Hf). cbn [Rsum]. rewrite (last_sum o) by lia.
    rewrite (Rsum_ext (length orders) (seg_cost _ _ _ _ _ _) (fun _ => 0)).
    + rewrite (Rsum_0 _ (fun _ => 0)) by auto. unfold last_rate. rewrite Nat.eqb_refl. change (user_traj mp2 z' ph) with (ys ph). nred. ring.
    + intros k _. unfold seg_cost. rewrite Rsum_0; [ring|]. intros j _. unfold run_at. cbn [mp_ocp]. rewrite (run_form o o' Hf). ring.
Qed.
Lemma motion_exists (mp mp' : mpo Rnum) npath nterm z' : mpo_ok mp -> ocp_ok (mp_ocp mp) npath nterm -> scales_pos (mp_ocp mp) ->
  exists z, length z = (o_nph (mp_ocp mp) * nvars mp)%nat /\ same_motion mp mp' z z'.
Proof.
  intros H1 H2 H3. exists (pack mp (fun ph => user_traj mp' z' ph)). split; [rewrite length_pack; reflexivity|].
  intros ph Hph. apply (pack_traj mp (fun ph => user_traj mp' z' ph) ph (ok_shapes _ _ _ H2) H3 Hph).
Qed.

(** ** the other direction *)
Section Back.
Variables (o o' : ocp Rnum) (K : nat) (orders : list nat) (cf : ccfg Rnum) (npath nterm npath' nterm' : nat -> option nat).
Let mp := Mpo o K orders cf.
Let mp' := Mpo o' K orders cf.
Hypothesis Hok : ocp_ok o npath nterm.
Hypothesis Hok' : ocp_ok o' npath' nterm'.
Hypothesis Hf : mayer_form o o'.
Hypothesis Hfree : free_last o o'.
Lemma bounds_back ph y : (ph < o_nph o)%nat -> bounds_ok mp ph y -> (ph = 0%nat -> y_x y 0 (o_nx o) = nth (o_nx o) (nth 0 (o_x00 o') []) 0) -> bounds_ok mp' ph y.
Proof.
  intros Hph (A & B & C & D & E) H0. unfold bounds_ok in *. cbn [mp_ocp mp_orders mp mp'] in *. nred. rewrite (mf_nx _ _ Hf), (mf_nu _ _ Hf), (mf_na _ _ Hf) in *.
  rewrite (mf_lbu _ _ Hf), (mf_ubu _ _ Hf), (mf_lbt0 _ _ Hf), (mf_ubt0 _ _ Hf), (mf_lbtf _ _ Hf), (mf_ubtf _ _ Hf), (mf_lba _ _ Hf), (mf_uba _ _ Hf).
  split; [|auto]. intros i s Hi Hs. destruct (Nat.eq_dec s (o_nx o)) as [->|Hn].
  - destruct (Nat.eqb_spec ph 0) as [->|]; cbn [andb].
    + destruct (Nat.eqb_spec i 0) as [->|]; [apply H0; reflexivity|]. exact (proj1 Hfree 0%nat _ Hph).
    + exact (proj1 Hfree ph _ Hph).
  - assert (Hs' : (s < o_nx o)%nat) by lia. specialize (A i s Hi Hs'). destruct (Nat.eqb ph 0 && Nat.eqb i 0).
    + etransitivity; [exact A|symmetry; exact (mf_start _ _ Hf s Hs')].
    + pose proof (mf_lbx _ _ Hf ph s Hs') as E1. pose proof (mf_ubx _ _ Hf ph s Hs') as E2. unfold bnd in *. rewrite E1, E2. exact A.
Qed.
Lemma phase_back rs w ph y : (ph < o_nph o)%nat -> phase_ok mp rs w ph y ->
  (forall i k j c, owned orders i k j -> seg_interp orders k (nth k rs []) (fun i => y_x y i (o_nx o)) c ->
     is_derive (peval c) (nth j (nth k rs []) 0) (seg_h cf w y k * run_at mp rs w ph y k j)) -> phase_ok mp' rs w ph y.
Proof.
  intros Hph (A & B & C & D & E & F) HL.
  split; [|split; [|split; [|split; [|split]]]]; unfold dynamics_ok, path_ok, slope_ok, midu_ok, ducont_ok, terminal_ok in *; cbn [mp_ocp mp_orders mp_cf mp mp'] in *; nred.
  - intros i k j s c Ho Hs Hc. match goal with |- context [dyn_val o' ph y i ?t] => destruct (dyn_form o o' _ _ _ _ Hok Hok' Hf ph y i t Hph) as [E1 E2]; rewrite E1 end. nred. rewrite (mf_nx _ _ Hf) in Hs.
    destruct (Nat.eq_dec s (o_nx o)) as [->|Hn].
    + rewrite (nth_end _ _ _ E2). pose proof (HL i k j c Ho Hc) as X. unfold run_at in X. cbn [mp_ocp mp_orders mp_cf mp] in X. destruct Ho as (q & _ & _ & _ & ->). exact X.
    + rewrite app_nth1 by (rewrite E2; lia). exact (A i k j s c Ho ltac:(lia) Hc).
  - intros i k j c Ho Hc. rewrite (path_form o o' _ _ _ _ Hok Hok' Hf _ _ _ _ Hph) in Hc. exact (B i k j c Ho Hc).
  - rewrite (mf_diff_u _ _ Hf), (mf_nu _ _ Hf), (mf_lbdu _ _ Hf), (mf_ubdu _ _ Hf), (mf_su _ _ Hf). exact C.
  - rewrite (mf_midu _ _ Hf), (mf_nu _ _ Hf), (mf_lbu _ _ Hf), (mf_ubu _ _ Hf). exact D.
  - rewrite (mf_ducont _ _ Hf), (mf_nu _ _ Hf). exact E.
  - intros c Hc. rewrite (term_form o o' _ _ _ _ Hok Hok' Hf _ _ _ Hph) in Hc. exact (F c Hc).
Qed.
Lemma links_back ys : links_ok mp ys -> links_ok mp' ys.
Proof.
  intros H Hn k i j Ek. unfold links_ok, link_ok in *. cbn [mp_ocp mp_orders mp mp'] in *. nred. rewrite (mf_nph _ _ Hf) in Hn. rewrite (mf_links _ _ Hf) in Ek. rewrite (mf_nx _ _ Hf), (mf_nu _ _ Hf).
  destruct (H Hn k i j Ek) as (A & B & C). split; [|auto]. intros s Hs. destruct (Nat.eq_dec s (o_nx o)) as [->|Hne].
  - exact (proj2 Hfree k _ (nth_error_lt _ _ _ Ek)).
  - assert (Hs' : (s < o_nx o)%nat) by lia. specialize (A s Hs'). pose proof (mf_lbe _ _ Hf k s Hs') as E1. pose proof (mf_ube _ _ Hf k s Hs') as E2. unfold bnd in *. rewrite E1, E2. exact A.
Qed.
(** the trajectory [y] with [Q] as new state *)
Definition widen (y : utraj) (Q : nat -> R) : utraj :=
  Utraj (fun i s => if Nat.eqb s (o_nx o) then Q i else y_x y i s) (y_u y) (y_t0 y) (y_tf y) (y_a y).
Lemma widen_same y Q : same_traj mp y (widen y Q).
Proof. repeat split. intros i s _ Hs. cbn in Hs. cbn. destruct (Nat.eqb_spec s (o_nx o)); [lia|reflexivity]. Qed.
Lemma widen_run rs w ph y Q k j : run_at mp rs w ph (widen y Q) k j = run_at mp rs w ph y k j.
Proof.
  unfold run_at, run_val. cbn [mp_ocp mp_orders mp_cf mp]. destruct (nth_error (o_run o) ph); [|reflexivity]. change (a_of o (widen y Q)) with (a_of o y).
  rewrite (vec_eq (o_nx o) (y_x (widen y Q) (offset orders k + j)) (y_x y (offset orders k + j))); [reflexivity|]. intros s Hs. cbn. destruct (Nat.eqb_spec s (o_nx o)); [lia|reflexivity].
Qed.
Lemma less_traj y y1 : same_traj mp' y y1 -> same_traj mp y y1.
Proof.
  intros (A & B & C & D & E). unfold same_traj in *. cbn [mp_ocp mp_orders mp mp'] in *. nred. rewrite (mf_nx _ _ Hf), (mf_nu _ _ Hf), (mf_na _ _ Hf) in *. split; [intros i s Hi Hs; apply A; lia|auto].
Qed.
End Back.

Theorem mayer_back (mp : mpo Rnum) o' npath nterm npath' nterm' z p : let mp' := Mpo o' (mp_nseg mp) (mp_orders mp) (mp_cf mp) in
  input_ok mp npath nterm z p -> ocp_ok o' npath' nterm' -> scales_pos o' -> mayer_form (mp_ocp mp) o' -> free_last (mp_ocp mp) o' ->
  widths_ok (mp_nseg mp) (o_nph (mp_ocp mp)) p -> (forall ph, (ph < o_nph (mp_ocp mp))%nat -> y_t0 (user_traj mp z ph) < y_tf (user_traj mp z ph)) ->
  exists rs n, mapM (c_roots (mp_cf mp)) (mp_orders mp) = Ok rs /\ nlp_at mp z p = Ok n /\ (feasible n ->
    ((exists z' n', length z' = (o_nph o' * nvars mp')%nat /\ same_motion mp mp' z z' /\ nlp_at mp' z' p = Ok n' /\ feasible n') <->
     forall ph, (ph < o_nph (mp_ocp mp))%nat -> cost_low mp rs (width mp p ph) ph (user_traj mp z ph))).
Proof.
  intros mp' Hin Hok' Hs' Hf Hfree Hw Hfw. destruct mp as [o K orders cf]. cbn [mp_ocp mp_nseg mp_orders mp_cf] in *. pose proof (in_ocp _ _ _ _ _ Hin) as Hok. cbn [mp_ocp] in Hok.
  set (mp := Mpo o K orders cf) in *. pose proof (mf_nph _ _ Hf) as En. pose proof (in_mpo _ _ _ _ _ Hin) as Hmp.
  assert (Hmp' : mpo_ok mp') by (destruct Hmp; constructor; assumption).
  pose proof Hin as [_ _ Hsc Hz Hp].
  destruct (nlp_at_ok mp Hmp npath nterm Hok Hsc z p Hz Hp) as (rs & n0 & R0 & _ & Hlrs & Hgood & _).
  destruct (nlp_like _ _ _ _ _ (user_traj mp z) Hin (fun ph _ => same_refl _ _)) as (rs1 & n & R1 & R2 & Hlen & R3 & _).
  assert (rs1 = rs) as -> by (pose proof (eq_trans (eq_sym R1) R0) as X; injection X as X; exact X).
  exists rs, n. split; [exact R0|]. split; [exact R2|]. intros Hfe. apply R3 in Hfe. cbn [mp_ocp mp mp_orders mp_cf] in *.
  assert (Hne : orders <> []) by (intros E; pose proof (mo_len _ Hmp) as L; pose proof (mo_nseg _ Hmp) as L1; cbn in L, L1; rewrite E in L; cbn in L; lia).
  assert (Hl0 : (0 < length orders)%nat) by (destruct orders; [congruence|cbn; lia]).
  assert (Hg : forall k, (k < length orders)%nat -> good_nodes (cf_tau0 cf) (cf_tau1 cf) (nth k orders 0%nat) (nth k rs [])).
  { intros k Hk. apply (Hgood k); apply nth_error_nth'; [exact Hk|rewrite Hlrs; exact Hk]. }
  assert (Hh : forall ph, (ph < o_nph o)%nat -> seg_h cf (width mp p ph) (user_traj mp z ph) 0 <> 0).
  { intros ph Hph. pose proof (Hfw ph Hph) as T. assert (Hwp : 0 < width mp p ph 0) by (destruct (part_widths mp p Hmp Hw ph Hph) as [X _]; apply X; exact Hl0).
    pose proof (co_taus _ (mo_cfg _ Hmp)) as Ht. cbn [mp_cf mp] in Ht. unfold seg_h. apply Rmult_integral_contrapositive. split; [apply Rmult_integral_contrapositive; split; lra|]. apply Rinv_neq_0_compat. lra. }
  split.
  - intros (z' & n' & Hz' & Hsm & En' & Hfe') ph Hph.
    assert (Hin' : input_ok mp' npath' nterm' z' p) by (constructor; [exact Hmp'|exact Hok'|exact Hs'|exact Hz'|cbn [mp_ocp mp' mp_nseg]; rewrite En; exact Hp]).
    destruct (nlp_like _ _ _ _ _ (user_traj mp' z') Hin' (fun ph _ => same_refl _ _)) as (rs2 & n2 & Q1 & Q2 & _ & Q3 & _).
    assert (n2 = n') as -> by (pose proof (eq_trans (eq_sym Q2) En') as X; injection X as X; exact X).
    cbn [mp_ocp mp_orders mp_cf mp'] in *. assert (rs2 = rs) as -> by (pose proof (eq_trans (eq_sym Q1) R0) as X; injection X as X; exact X).
    apply Q3 in Hfe'. destruct Hfe' as (_ & B & _). rewrite En in B. destruct (B ph Hph) as (D & _). change (width mp' p ph) with (width mp p ph) in D.
    set (y' := user_traj mp' z' ph) in *. set (y := user_traj mp z ph) in *. specialize (Hsm ph Hph). fold y y' in Hsm.
    destruct (fill_needs orders rs (cf_tau0 cf) (cf_tau1 cf) (fun k j => seg_h cf (width mp p ph) y k * run_at mp rs (width mp p ph) ph y k j) (fun i => y_x y' i (o_nx o)) Hne (Hg 0%nat Hl0)) as (C & LC & EC).
    + intros j c Hj Hc. specialize (D (offset orders 0 + j)%nat 0%nat j (o_nx o) c). cbn [mp_ocp mp_orders mp_cf mp'] in D.
      assert (Ho : owned orders (offset orders 0 + j) 0 j) by (exists (nth 0 orders 0%nat); split; [apply nth_error_nth'; exact Hl0|]; auto).
      specialize (D Ho ltac:(rewrite (mf_nx _ _ Hf); lia) Hc).
      match type of D with context [dyn_val o' ph y' ?i ?t] => destruct (dyn_form o o' _ _ _ _ Hok Hok' Hf ph y' i t Hph) as [E1 E2]; rewrite E1 in D end. nred. rewrite (nth_end _ _ _ E2) in D.
      pose proof (seg_h_eq mp (width mp p ph) y y' Hsm 0) as X. cbn [mp_cf mp] in X. rewrite <- X in D. rewrite (run_at_eq mp rs (width mp p ph) ph Hlen y y' 0 j Hsm Hl0) by (destruct (Hg 0%nat Hl0) as (L & _); rewrite L; lia). exact D.
    + exists (@pscale Rnum (/ seg_h cf (width mp p ph) y 0)%R C). cbn [mp_orders mp]. split; [rewrite length_pscale; exact LC|]. intros j Hj. rewrite peval_pscale, (EC j Hj). field. apply (Hh ph Hph).
  - intros Hlow. destruct Hfe as (A & B & D).
    destruct (finite_choice (fun ph Q => (ph = 0%nat -> Q 0%nat = nth (o_nx o) (nth 0 (o_x00 o') []) 0) /\
      forall i k j c, owned orders i k j -> seg_interp orders k (nth k rs []) Q c ->
        is_derive (peval c) (nth j (nth k rs []) 0) (seg_h cf (width mp p ph) (user_traj mp z ph) k * run_at mp rs (width mp p ph) ph (user_traj mp z ph) k j)) (fun _ => 0) (o_nph o)) as (Q & HQ).
    { intros ph Hph. destruct (fill_state orders rs (cf_tau0 cf) (cf_tau1 cf) (fun k j => seg_h cf (width mp p ph) (user_traj mp z ph) k * run_at mp rs (width mp p ph) ph (user_traj mp z ph) k j) (nth (o_nx o) (nth 0 (o_x00 o') []) 0) Hne (mo_pos _ Hmp) Hg) as (Q & E0 & HQ).
      - destruct (Hlow ph Hph) as (C & LC & EC). cbn [mp_orders mp] in LC, EC. exists (@pscale Rnum (seg_h cf (width mp p ph) (user_traj mp z ph) 0) C). split; [rewrite length_pscale; exact LC|].
        intros j Hj. rewrite peval_pscale, (EC j Hj). reflexivity.
      - exists Q. split; [intros _; exact E0|exact HQ]. }
    set (ys := fun ph => widen o (user_traj mp z ph) (Q ph)).
    set (z' := pack mp' ys).
    assert (Hz' : length z' = (o_nph o' * nvars mp')%nat) by (unfold z'; rewrite length_pack; reflexivity).
    assert (Hin' : input_ok mp' npath' nterm' z' p) by (constructor; [exact Hmp'|exact Hok'|exact Hs'|exact Hz'|cbn [mp_ocp mp' mp_nseg]; rewrite En; exact Hp]).
    assert (Hpk : forall ph, (ph < o_nph o')%nat -> same_traj mp' (user_traj mp' z' ph) (ys ph)) by (intros ph Hph; exact (pack_traj mp' ys ph (ok_shapes _ _ _ Hok') Hs' Hph)).
    destruct (nlp_like _ _ _ _ _ ys Hin' Hpk) as (rs2 & n2 & Q1 & Q2 & _ & Q3 & _).
    cbn [mp_ocp mp_orders mp_cf mp'] in *. assert (rs2 = rs) as -> by (pose proof (eq_trans (eq_sym Q1) R0) as X; injection X as X; exact X).
    assert (Hys : forall ph, same_traj mp (user_traj mp z ph) (ys ph)) by (intros ph; apply widen_same).
    exists z', n2. split; [exact Hz'|]. split.
    { intros ph Hph. apply (same_trans mp _ (ys ph)); [apply Hys|]. apply same_sym. apply (less_traj o o' K orders cf Hf). apply Hpk. rewrite En. exact Hph. }
    split; [exact Q2|]. apply Q3. split; [|split].
    + intros ph Hph. rewrite En in Hph. apply (bounds_back o o' K orders cf Hf Hfree ph _ Hph); [apply (bounds_congr mp ph (user_traj mp z ph)); auto|].
      intros E0. unfold ys, widen. cbn. rewrite Nat.eqb_refl. apply (HQ ph Hph). exact E0.
    + intros ph Hph. rewrite En in Hph. apply (phase_back o o' K orders cf _ _ _ _ Hok Hok' Hf rs _ ph _ Hph); [apply (phase_congr mp rs (width mp p ph) ph Hlen (user_traj mp z ph)); auto|].
      intros i k j c Ho Hc. pose proof (widen_run o K orders cf rs (width mp p ph) ph (user_traj mp z ph) (Q ph) k j) as X. unfold ys. evar_last; [apply (proj2 (HQ ph Hph) i k j c Ho)|exact (f_equal (fun v => seg_h cf (width mp p ph) (user_traj mp z ph) k * v) (eq_sym X))]. destruct Hc as [Hc1 Hc2]. split; [exact Hc1|]. intros j' Hj'. refine (eq_trans (Hc2 j' Hj') _). unfold ys, widen. cbn. rewrite Nat.eqb_refl. reflexivity.
    + apply (links_back o o' K orders cf Hf Hfree). apply (links_congr mp (user_traj mp z) ys); auto. right. exact (ok_links _ _ _ Hok).
Qed.
