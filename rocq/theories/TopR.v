(** The module function solve: proofs. *)
From Coq Require Import String.
From Coq Require Import Reals.
From Coq Require Import List Lia Lra Bool Arith.
From Verif Require Import Num PyList Mat Poly Roots Colloc Ocp Transcribe Solve Hadapt Resid Adaptive Post Top
  Spec SpecOcp SpecSolve SpecHadapt SpecResid SpecLoop SpecAdapt SpecPost SpecTop NumR ListR NlpR NlpThm NlpMain SolveR RefineThm LoopR PostMain PostTotal.
Import ListNotations.
Open Scope R_scope.
Open Scope list_scope.

Section T.
Variables (rc : rcfg) (E : mpo Rnum -> env (N := Rnum)) (mute : bool).
Variables (mp : mpo Rnum) (npath nterm : nat -> option nat).
Hypotheses (Hmp : mpo_ok mp) (Hok : ocp_ok (mp_ocp mp) npath nterm) (Hsc : scales_pos (mp_ocp mp)).

Lemma length_even : length (even mp) = (o_nph (mp_ocp mp) * mp_nseg mp)%nat.
Proof. unfold even. rewrite repeat_length. lia. Qed.
Lemma even_ok : widths_ok (mp_nseg mp) (o_nph (mp_ocp mp)) (even mp).
Proof. rewrite <- even_R. apply equal_widths_ok. exact (mo_nseg _ Hmp). Qed.
Lemma warm_total init : exists i, warm_start mp init = Ok i.
Proof.
  destruct (GuessR.initial_guess mp Hmp (ok_shapes _ _ _ Hok)) as (z0 & Ez0 & _).
  unfold warm_start. rewrite Ez0. cbn [bind]. destruct init as [s|]; cbn [bind]; destruct (dmem _ _ _); eauto.
Qed.

Lemma base_run a s p i : st_solver s = None -> chosen mp (dict_at s (a_mopts a)) p -> warm_start mp (a_init a) = Ok i ->
  e_build (E mp) = Ok tt -> (forall name opts, e_nlpsol (E mp) name opts = Ok tt) ->
  (forall calls v i, exists sol x f, e_run (E mp) calls v i = Ok sol /\ dget String.eqb sol "x"%string = Some x /\
     length x = (o_nph (mp_ocp mp) * nvars mp)%nat /\ dget String.eqb sol "f"%string = Some f) ->
  exists v sol x, base_solve (E mp) mp mute a s =
      (Ost (Some v) (Some p) (st_iter s) (st_info s) (st_calls s ++ [Call v (dset String.eqb i "p"%string p) (Ok sol)]) (st_dicts s), Ok sol) /\
    dget String.eqb sol "x"%string = Some x /\ length x = (o_nph (mp_ocp mp) * nvars mp)%nat.
Proof.
  intros Hs Hp Ei Hb Hn Hr.
  set (v := Nlpsol (a_solver a) (solver_options (a_solver a) (dict_at s (a_nopts a)))).
  destruct (Hr (st_calls s) v (dset String.eqb i "p"%string p)) as (sol & x & f & E1 & E2 & E3 & E4).
  assert (Ep : match dget String.eqb (dict_at s (a_mopts a)) "nlp_sw_params"%string with Some v => as_nums v | None => Ok (equal_widths mp) end = Ok p).
  { unfold chosen in Hp. destruct (dget String.eqb (dict_at s (a_mopts a)) _); [rewrite Hp; reflexivity|rewrite Hp, even_R; reflexivity]. }
  exists v, sol, x. split; [|auto].
  unfold base_solve, create_solver, current_solver, call_solver, mbind, get, set_solver, set_sw, lift, ret.
  rewrite Hs, Hb, Hn. unfold dict_at in *. cbn [st_solver st_sw st_iter st_info st_calls st_dicts].
  nred. rewrite Ep. cbn [st_solver st_sw st_iter st_info st_calls st_dicts]. rewrite Ei. cbn [st_solver st_sw st_iter st_info st_calls st_dicts].
  unfold v, dict_at in *. rewrite E1. unfold print_cost, dat. cbn [st_solver st_sw st_iter st_info st_calls st_dicts].
  destruct mute; [reflexivity|]. change (list (carrier Rnum)) with (list R). rewrite E4. reflexivity.
Qed.

Lemma top_ok a s p : chosen mp (dict_at s (a_mopts a)) p -> widths_ok (mp_nseg mp) (o_nph (mp_ocp mp)) p ->
  solver_total (E mp) mp ->
  (forall ph, (ph < o_nph (mp_ocp mp))%nat -> exists g, nth_error (r_grid rc) ph = Some g /\ grid_known g) ->
  forall o n po cf plots rx rdx, new_mpo o n po cf = Ok mp -> plots <> [] ->
  exists s' post, top_solve rc E mute o n po cf plots a rx rdx s = (s', Ok (mp, post)).
Proof.
  intros Hp Hw (Hb & Hn & Hr) Hg o n po cf plots rx rdx Hmk Hpl.
  set (s0 := Ost None None 0 [] (st_calls s) (st_dicts s)).
  destruct (warm_total (a_init a)) as (i & Ei).
  destruct (base_run a s0 p i eq_refl Hp Ei Hb Hn Hr) as (v & sol & x & Eb & Ex & Lx).
  assert (Hin : input_ok mp npath nterm x p).
  { constructor; auto. destruct Hw as (Lw & _). rewrite Lw. lia. }
  destruct (process_total rc mp npath nterm x p plots false rx rdx Hin Hpl Hw Hg) as (po' & Epo).
  eexists _, po'.
  unfold top_solve. unfold mbind at 1, lift at 1. rewrite Hmk. unfold mbind at 1, new_object. fold s0. unfold mbind at 1. rewrite Eb.
  unfold mbind at 1, process, mbind, get, lift. unfold dat. rewrite Ex. cbn [bind st_sw]. rewrite Epo. reflexivity.
Qed.
End T.

Lemma new_built (o : ocp Rnum) n po cf mp : new_mpo o n po cf = Ok mp <-> built o n po cf mp.
Proof.
  unfold new_mpo, built, assert_. split.
  - destruct (Nat.eqb_spec (length (orders_of n po)) n) as [L|L]; cbn [bind]; [|discriminate]. intros [= <-]. cbn. destruct po as [q|l]; cbn in L |- *; auto 8.
    do 4 (split; [auto|]). intros p H. exact (repeat_spec _ _ _ H).
  - destruct mp as [o' n' l' cf']. cbn. intros (<- & <- & <- & L & H). 
    assert (El : l' = orders_of n' po). { destruct po as [q|l]; cbn; [|exact H]. rewrite <- L. exact (Forall_eq_repeat (proj2 (Forall_forall _ _) (fun x h => eq_sym (H x h)))). }
    rewrite El in L. rewrite L, Nat.eqb_refl. cbn. now rewrite El.
Qed.

Section Made.
Variables (rc : rcfg) (E : mpo Rnum -> env (N := Rnum)) (mute : bool) (o : ocp Rnum) (n : nat) (po : orders_arg) (cf : ccfg Rnum).
Variables (plots : list (list nat)) (a : sargs (N := Rnum)) (rx rdx : bool) (s s' : ost (N := Rnum)) (mp : mpo Rnum) (post : post (N := Rnum)).
Hypothesis Hrun : top_solve rc E mute o n po cf plots a rx rdx s = (s', Ok (mp, post)).

Lemma top_inv : built o n po cf mp /\ exists c sol x p i, st_calls s' = st_calls s ++ [c] /\
  made_solver (a_solver a) (dict_at s (a_nopts a)) (ca_solver c) /\ ca_out c = Ok sol /\ dget String.eqb sol "x"%string = Some x /\
  warm_start mp (a_init a) = Ok i /\ ca_in c = dset String.eqb i "p"%string p /\ chosen mp (dict_at s (a_mopts a)) p /\
  process_results rc mp plots p x false rx rdx = Ok post.
Proof.
  pose proof Hrun as H. unfold top_solve in H. apply mbind_inv in H. destruct H as [(m & s1 & H1 & H)|(e & _ & H)]; [|discriminate].
  unfold lift in H1. destruct (new_mpo o n po cf) as [m'|] eqn:Em; [|discriminate]. injection H1 as <- <-.
  unfold mbind at 1, new_object in H. apply mbind_inv in H. destruct H as [(sol & s2 & H2 & H)|(e & _ & H)]; [|discriminate].
  apply mbind_inv in H. destruct H as [(pp & s3 & H3 & H)|(e & _ & H)]; [|discriminate].
  unfold ret in H. injection H as <- <- <-. split; [apply new_built; exact Em|].
  apply base_inv in H2. destruct H2 as (Hd & s4 & Hd4 & Hc4 & [(_ & (e & C) & _)|(T & Hs)]); [discriminate|].
  destruct T as (_ & _ & [(_ & e & C)|(c & i & w & Hc & Hv & Hi & Hin & Hw & Hch & Ho)]); [discriminate|].
  destruct Ho as [Ho|(sol' & _ & _ & _ & C)]; [|discriminate].
  unfold process, mbind, get, lift in H3. destruct (dat String.eqb sol "x"%string) as [x|] eqn:Ex; [|discriminate]. cbn [bind] in H3.
  rewrite Hw in H3. destruct (process_results rc m' plots w x false rx rdx) as [po'|] eqn:Epo; [|discriminate]. injection H3 as <- <-.
  exists c, sol, x, w, i. split; [rewrite Hc, Hc4; reflexivity|]. cbn [st_solver] in Hs. rewrite Hv in Hs. injection Hs as Hs.
  split. { rewrite Hs. split; [reflexivity|]. cbn [s_opts]. intros Hnd. apply options_spec. exact Hnd. }
  split; [auto|]. split. { unfold dat in Ex. destruct (dget String.eqb sol "x"%string); [|discriminate]. injection Ex as ->. reflexivity. }
  split; [exact Hi|]. split; [exact Hin|]. split; [|exact Epo].
  unfold chosen, dict_at in *. rewrite Hd4 in Hch. cbn [st_dicts] in Hch. rewrite even_R in Hch. exact Hch.
Qed.

Theorem top_once : built o n po cf mp /\ exists c sol x p, st_calls s' = st_calls s ++ [c] /\
  made_solver (a_solver a) (dict_at s (a_nopts a)) (ca_solver c) /\ chained mp (a_init a) [c] /\
  used_widths c = Some p /\ chosen mp (dict_at s (a_mopts a)) p /\
  ca_out c = Ok sol /\ dget String.eqb sol "x"%string = Some x /\
  forall npath nterm, input_ok mp npath nterm x p -> made_by_mpopt mp false plots (width mp p) (user_traj mp x) post.
Proof.
  destruct top_inv as (Hb & c & sol & x & p & i & H1 & H2 & H3 & H4 & H5 & H6 & H7 & H8). split; [exact Hb|].
  exists c, sol, x, p. split; [exact H1|]. split; [exact H2|]. split; [cbn [chained]; split; [eauto|rewrite H3; exact I]|].
  split; [unfold used_widths; rewrite H6; rewrite dget_dset; reflexivity|]. split; [exact H7|]. split; [exact H3|]. split; [exact H4|].
  intros npath nterm Hin. exists rc, npath, nterm, x, p, rx, rdx. auto.
Qed.

Theorem top_solution : exists c sol x p, st_calls s' = st_calls s ++ [c] /\ ca_out c = Ok sol /\ dget String.eqb sol "x"%string = Some x /\
  used_widths c = Some p /\ forall npath nterm, input_ok mp npath nterm x p -> phases_ok mp (nth 0 plots []) ->
  exists rs nl d, mapM (c_roots (mp_cf mp)) (mp_orders mp) = Ok rs /\ nlp_at mp x p = Ok nl /\ get_data post [] false = Ok d /\
    nodal_data mp rs false (width mp p) (user_traj mp x) (nth 0 plots []) d /\
    (feasible nl <-> (forall ph, (ph < o_nph (mp_ocp mp))%nat ->
        bounds_ok mp ph (user_traj mp x ph) /\ phase_ok mp rs (width mp p ph) ph (user_traj mp x ph)) /\
       links_ok mp (user_traj mp x)).
Proof.
  destruct top_once as (Hb & c & sol & x & p & H1 & H2 & H3 & H4 & H5 & H6 & H7 & H8).
  exists c, sol, x, p. do 4 (split; [assumption|]). intros npath nterm Hin Hph. pose proof (H8 _ _ Hin) as Hm.
  destruct (nodal_thm mp false plots _ _ post (or_introl Hm) [] Hph) as (rs & d & Ers & Ed & Hd). cbn [asked] in Hd.
  destruct (nlp_at_ok mp (in_mpo _ _ _ _ _ Hin) npath nterm (in_ocp _ _ _ _ _ Hin) (in_sc _ _ _ _ _ Hin) x p (in_z _ _ _ _ _ Hin) (in_p _ _ _ _ _ Hin))
    as (rs' & nl & Ers' & En & _ & _ & _ & _ & _ & _ & Hx & Hg & _).
  rewrite Ers in Ers'. injection Ers' as <-. exists rs, nl, d. do 4 (split; [assumption|]).
  unfold feasible. rewrite Hx, Hg. split.
  - intros (A & B & C). split; [|exact C]. intros ph Hp. split; auto.
  - intros (A & C). split; [|split; [|exact C]]; intros ph Hp; apply A; exact Hp.
Qed.
End Made.

Theorem top_total : forall rc (E : mpo Rnum -> env) mute o n po cf plots a rx rdx s mp npath nterm p,
  built o n po cf mp -> mpo_ok mp -> ocp_ok o npath nterm -> scales_pos o -> plots <> [] ->
  chosen mp (dict_at s (a_mopts a)) p -> widths_ok n (o_nph o) p -> solver_total (E mp) mp ->
  (forall ph, (ph < o_nph o)%nat -> exists g, nth_error (r_grid rc) ph = Some g /\ grid_known g) ->
  exists s' post, top_solve rc E mute o n po cf plots a rx rdx s = (s', Ok (mp, post)).
Proof.
  intros rc E mute o n po cf plots a rx rdx s mp npath nterm p Hb Hmp Hok Hsc Hpl Hc Hw Ht Hg. pose proof Hb as (Eo & En & _). subst o n.
  apply (top_ok rc E mute mp npath nterm Hmp Hok Hsc a s p); auto. apply new_built. exact Hb.
Qed.

(** a list of orders of another length than n_segments is refused before anything else is done *)
Theorem top_refuses : forall rc (E : mpo Rnum -> env) mute o n l cf plots a rx rdx s, length l <> n ->
  top_solve rc E mute o n (OList l) cf plots a rx rdx s = (s, Raise AssertionError).
Proof.
  intros. unfold top_solve, mbind, lift, new_mpo, assert_. cbn [orders_of]. rewrite (proj2 (Nat.eqb_neq _ _) H). reflexivity.
Qed.
(** an exception of the solver passes through *)
Theorem top_raises : forall rc (E : mpo Rnum -> env) mute o n po cf plots a rx rdx s s' c e,
  (exists r, top_solve rc E mute o n po cf plots a rx rdx s = (s', r) /\ st_calls s' = st_calls s ++ [c] /\ ca_out c = Raise e) ->
  top_solve rc E mute o n po cf plots a rx rdx s = (s', Raise e).
Proof.
  intros rc E mute o n po cf plots a rx rdx s s' c e (r & H & Hc & He). rewrite H. f_equal.
  unfold top_solve in H. apply mbind_inv in H. destruct H as [(m & s1 & H1 & H)|(e1 & H1 & Hr)].
  2:{ unfold lift in H1. injection H1 as <- _. exfalso. apply (f_equal (@length _)) in Hc. rewrite app_length in Hc. cbn in Hc. lia. }
  unfold lift in H1. destruct (new_mpo o n po cf) as [m'|] eqn:Em; [|discriminate]. injection H1 as <- <-.
  unfold mbind at 1, new_object in H. apply mbind_inv in H. destruct H as [(sol & s2 & H2 & H)|(e2 & H2 & Hr)].
  - exfalso. apply base_inv in H2. destruct H2 as (Hd & s4 & Hd4 & Hc4 & [(_ & (e' & C) & _)|(T & Hs)]); [discriminate|].
    destruct T as (_ & _ & [(_ & e' & C)|(c' & i & w & Hc' & Hv & Hi & Hin & Hw & Hch & Ho)]); [discriminate|].
    destruct Ho as [Ho|(sol' & _ & _ & _ & C)]; [|discriminate].
    assert (K : st_calls s' = st_calls s2).
    { unfold process, mbind, get, lift, ret in H. destruct (dat _ _ _) as [x|]; cbn [bind] in H; [|injection H as <- _; reflexivity].
      destruct (match st_sw s2 with Some sw => _ | None => _ end); injection H as <- _; reflexivity. }
    rewrite K, Hc', Hc4 in Hc. cbn [st_calls] in Hc. apply app_inv_head in Hc. injection Hc as ->. congruence.
  - subst r. apply base_inv in H2. destruct H2 as (Hd & s4 & Hd4 & Hc4 & [(-> & _)|(T & Hs)]).
    { exfalso. rewrite Hc4 in Hc. cbn [st_calls] in Hc. apply (f_equal (@length _)) in Hc. rewrite app_length in Hc. cbn in Hc. lia. }
    destruct T as (_ & _ & [(Hc' & _)|(c' & i & w & Hc' & Hv & Hi & Hin & Hw & Hch & Ho)]).
    { exfalso. rewrite Hc', Hc4 in Hc. cbn [st_calls] in Hc. apply (f_equal (@length _)) in Hc. rewrite app_length in Hc. cbn in Hc. lia. }
    rewrite Hc', Hc4 in Hc. cbn [st_calls] in Hc. apply app_inv_head in Hc. injection Hc as ->.
    destruct Ho as [Ho|(sol' & C & _)]; congruence.
Qed.
