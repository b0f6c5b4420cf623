(** The objective (proofs of C16). *)
From Coq Require Import Reals Lia Lra Bool Arith String.
From Coquelicot Require Import Coquelicot.
From Coq Require Import List.
From Verif Require Import Num PyList Mat Poly Roots Colloc Ocp Transcribe Spec SpecOcp NumR ListR PolyR CollocR CompR CollocThm MeshR BlockR DiscR NlpR OcpR NlpThm.
Import ListNotations.
Open Scope R_scope.

Lemma finite_choice {A} (P : nat -> A -> Prop) (d : A) n : (forall k, (k < n)%nat -> exists c, P k c) ->
  exists C, forall k, (k < n)%nat -> P k (C k).
Proof.
  induction n as [|n IH]; intros H; [exists (fun _ => d); intros; lia|].
  destruct IH as [C HC]; [intros; apply H; lia|]. destruct (H n) as [c Hc]; [lia|].
  exists (fun k => if Nat.eqb k n then c else C k). intros k Hk. destruct (Nat.eqb_spec k n) as [->|]; [exact Hc|]. apply HC. lia.
Qed.

Section Cost.
Variables (mp : mpo Rnum) (npath nterm : nat -> option nat) (z p : list R).
Hypothesis Hin : input_ok mp npath nterm z p.
Let o := mp_ocp mp.
Let cf := mp_cf mp.
Let orders := mp_orders mp.

Lemma rs_nodup rs : mapM (c_roots cf) orders = Ok rs -> forall k, (k < length orders)%nat -> NoDup (nth k rs []).
Proof.
  intros E k Hk. pose proof Hin as [Hmp _ _ _ _]. destruct (mapM_inv _ _ _ E) as [Hl Hn].
  destruct (nth_error orders k) as [q|] eqn:Eq; [|apply nth_error_None in Eq; lia].
  destruct (Hn k q Eq) as (r & Hr & Er).
  destruct (c_roots_good cf q (mo_cfg _ Hmp) (mo_pos _ Hmp q (nth_error_In _ _ Eq))) as (r' & Er' & Hg).
  nred. rewrite (nth_error_nth _ _ [] Hr). assert (r' = r) by (nred; congruence). subst. exact (good_nodup _ _ _ _ Hg).
Qed.
Lemma cost_polys_exist rs : mapM (c_roots cf) orders = Ok rs ->
  exists C B, (forall ph, (ph < o_nph o)%nat -> cost_interp mp rs (width mp p ph) ph (user_traj mp z ph) (C ph)) /\ start_basis mp rs B.
Proof.
  intros E. pose proof (rs_nodup rs E) as Hnd.
  destruct (finite_choice (fun ph C => cost_interp mp rs (width mp p ph) ph (user_traj mp z ph) C) (fun _ => []) (o_nph o)) as [C HC].
  { intros ph _. apply (finite_choice (fun k c => interpolates c (nth k rs []) (run_at mp rs (width mp p ph) ph (user_traj mp z ph) k)) []).
    intros k Hk. apply interp_exists. auto. }
  destruct (finite_choice (fun k c => interpolates c (nth k rs []) (fun j => if Nat.eqb j 0 then 1 else 0)) [] (length orders)) as [B HB].
  { intros k Hk. apply interp_exists. auto. }
  exists C, B. split; [exact HC|exact HB].
Qed.
Lemma basis_int_lgr rs B k : mapM (c_roots cf) orders = Ok rs -> cf_scheme cf = "LGR"%string ->
  (forall q, In q (tl orders) -> (2 <= q)%nat) -> start_basis mp rs B -> (k < length orders - 1)%nat ->
  RInt (peval (B (S k))) (cf_tau0 cf) (cf_tau1 cf) = 0.
Proof.
  intros E Hs Ho HB Hk. pose proof Hin as [Hmp _ _ _ _].
  destruct (nth_error orders (S k)) as [q|] eqn:Eq; [|apply nth_error_None in Eq; lia].
  destruct (mapM_inv _ _ _ E) as [Hl Hn]. destruct (Hn (S k) q Eq) as (r & Hr & Er).
  assert (Hq : (2 <= q)%nat). { apply Ho. destruct orders as [|a l]; [discriminate|]. exact (nth_error_In l k Eq). }
  pose proof (lgr_first_weight cf q r (mo_cfg _ Hmp) Hs Hq Er) as Hw.
  pose proof (rs_nodup rs E (S k) ltac:(lia)) as Hnd.
  specialize (HB (S k) ltac:(fold orders; lia)). nred. rewrite (nth_error_nth _ _ [] Hr) in HB, Hnd.
  replace (RInt (peval (B (S k))) (cf_tau0 cf) (cf_tau1 cf)) with (ell_int r (cf_tau0 cf) (cf_tau1 cf) 0); [exact Hw|].
  unfold ell_int. apply RInt_ext. intros x _.
  apply (interp_unique r); auto.
  - destruct (c_roots_good cf q (mo_cfg _ Hmp) ltac:(lia)) as (r' & Er' & Hg). assert (r' = r) by (nred; congruence). subst r'.
    destruct Hg as (Hlr & _). nred. pose proof (length_lagrange_num r 0 ltac:(nred; lia)) as L. nred. lia.
  - apply HB.
  - intros j Hj. destruct HB as [_ HB]. rewrite (HB j Hj). rewrite peval_lagrange_num, lagv_node by (auto; nred; lia).
    destruct (Nat.eqb_spec j 0); destruct (Nat.eqb_spec 0 j); try lia; reflexivity.
Qed.
Lemma start_cost_lgr rs w ph y B : mapM (c_roots cf) orders = Ok rs -> cf_scheme cf = "LGR"%string ->
  (forall q, In q (tl orders) -> (2 <= q)%nat) -> start_basis mp rs B -> start_cost mp rs w ph y B = 0.
Proof.
  intros E Hs Ho HB. unfold start_cost. fold orders cf. apply Rsum_0. intros k Hk.
  nred. rewrite (basis_int_lgr rs B k E Hs Ho HB Hk). ring.
Qed.

Lemma objective : exists rs n, mapM (c_roots cf) orders = Ok rs /\ nlp_at mp z p = Ok n /\
  (exists C B, (forall ph, (ph < o_nph o)%nat -> cost_interp mp rs (width mp p ph) ph (user_traj mp z ph) (C ph)) /\ start_basis mp rs B) /\
  (forall C B, (forall ph, (ph < o_nph o)%nat -> cost_interp mp rs (width mp p ph) ph (user_traj mp z ph) (C ph)) ->
    start_basis mp rs B ->
    n_f n = Rsum (o_nph o) (fun ph => phase_cost mp (width mp p ph) ph (user_traj mp z ph) (C ph) -
                                      start_cost mp rs (width mp p ph) ph (user_traj mp z ph) B)) /\
  (cf_scheme cf = "LGR"%string -> (forall q, In q (tl orders) -> (2 <= q)%nat) ->
   forall C, (forall ph, (ph < o_nph o)%nat -> cost_interp mp rs (width mp p ph) ph (user_traj mp z ph) (C ph)) ->
    n_f n = Rsum (o_nph o) (fun ph => phase_cost mp (width mp p ph) ph (user_traj mp z ph) (C ph))) /\
  (length orders = 1%nat ->
   forall C, (forall ph, (ph < o_nph o)%nat -> cost_interp mp rs (width mp p ph) ph (user_traj mp z ph) (C ph)) ->
    n_f n = Rsum (o_nph o) (fun ph => phase_cost mp (width mp p ph) ph (user_traj mp z ph) (C ph))).
Proof.
  pose proof Hin as [Hmp Hok Hsc Hz Hp].
  assert (HA : exists rs n, mapM (c_roots cf) orders = Ok rs /\ nlp_at mp z p = Ok n /\
    (forall C B, (forall ph, (ph < o_nph o)%nat -> cost_interp mp rs (width mp p ph) ph (user_traj mp z ph) (C ph)) ->
       start_basis mp rs B ->
       n_f n = Rsum (o_nph o) (fun ph => phase_cost mp (width mp p ph) ph (user_traj mp z ph) (C ph) -
                                         start_cost mp rs (width mp p ph) ph (user_traj mp z ph) B))).
  { destruct (nlp_at_ok mp Hmp npath nterm Hok Hsc z p Hz Hp) as (rs & n & E1 & E2 & _ & _ & _ & _ & _ & _ & _ & _ & E3). exists rs, n. auto. }
  destruct HA as (rs & n & E1 & E2 & E3). exists rs, n. split; [exact E1|]. split; [exact E2|].
  destruct (cost_polys_exist rs E1) as (C0 & B0 & HC0 & HB0).
  split; [exists C0, B0; auto|]. split; [exact E3|]. split.
  - intros Hs Ho C HC. rewrite (E3 C B0 HC HB0). apply Rsum_ext. intros ph Hph.
    rewrite (start_cost_lgr rs _ ph _ B0 E1 Hs Ho HB0). ring.
  - intros Hl C HC. rewrite (E3 C B0 HC HB0). apply Rsum_ext. intros ph Hph. unfold start_cost. fold orders. rewrite Hl. cbn [Nat.sub Rsum]. ring.
Qed.
End Cost.
