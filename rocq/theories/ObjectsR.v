(** Aliasing between the user's objects and an optimizer (proofs). *)
From Coq Require Import Reals List Arith Lia Bool.
From Verif Require Import Num PyList Mat Roots Colloc Ocp Transcribe Spec SpecOcp NumR ListR Objects.
Import ListNotations.

Section Any.
Context {N : num}.

Lemma new_mpo_ok (o : ocp N) n a cf : (exists mp, new_mpo o n a cf = Ok mp) <-> length (orders_of n a) = n.
Proof.
  unfold new_mpo. split.
  - intros [mp H]. destruct (Nat.eqb_spec (length (orders_of n a)) n); [auto|discriminate].
  - intros H. rewrite H, Nat.eqb_refl. cbn. eauto.
Qed.
Lemma new_mpo_val (o : ocp N) n a cf mp : new_mpo o n a cf = Ok mp ->
  mp_ocp mp = o /\ mp_nseg mp = n /\ mp_orders mp = orders_of n a /\ mp_cf mp = cf.
Proof. unfold new_mpo. destruct (Nat.eqb _ n); [|discriminate]. intros H. injection H as <-. auto. Qed.

Lemma set_nth_other {A} (l : list A) i j x : i <> j -> nth_error (set_nth l i x) j = nth_error l j.
Proof. revert i j; induction l as [|a l IH]; intros [|i] [|j] H; cbn; auto; try lia. Qed.
Lemma set_nth_same {A} (l : list A) i x : (i < length l)%nat -> nth_error (set_nth l i x) i = Some x.
Proof. revert i; induction l as [|a l IH]; intros [|i] H; cbn in *; try lia; auto. apply IH. lia. Qed.


Lemma usteps_ocp (s : store N) us a b : (forall u, In u us -> holds a b u) -> nth_error (s_ocps (usteps s us)) a = nth_error (s_ocps s) a.
Proof.
  revert s; induction us as [|u us IH]; intros s H; [reflexivity|]. cbn. unfold usteps in IH. rewrite IH by (intros; apply H; now right).
  specialize (H u (or_introl eq_refl)). destruct u as [i ob|i l]; cbn in *; [|reflexivity]. apply set_nth_other. lia.
Qed.
Lemma usteps_list (s : store N) us a b : (forall u, In u us -> holds a b u) -> nth_error (s_lists (usteps s us)) b = nth_error (s_lists s) b.
Proof.
  revert s; induction us as [|u us IH]; intros s H; [reflexivity|]. cbn. unfold usteps in IH. rewrite IH by (intros; apply H; now right).
  specialize (H u (or_introl eq_refl)). destruct u as [i ob|i l]; cbn in *; [reflexivity|]. apply set_nth_other. lia.
Qed.

Lemma make_mpo_inv s prob n po cf s' m : make_mpo (N := N) s prob n po cf = Ok (s', m) ->
  exists ob l, nth_error (s_ocps s) prob = Some ob /\ s_ocps s' = s_ocps s ++ [ob] /\ m_ocp m = length (s_ocps s) /\
    m_nseg m = n /\ m_cf m = cf /\ length l = n /\ nth_error (s_lists s') (m_orders m) = Some l /\
    match po with RInt p => l = repeat p n /\ m_orders m = length (s_lists s)
                | RList a => nth_error (s_lists s) a = Some l /\ m_orders m = a end.
Proof.
  unfold make_mpo. destruct po as [p|a]; unfold at_.
  - destruct (nth_error (s_ocps s) prob) as [ob|] eqn:E; [|discriminate]. cbn [bind].
    rewrite nth_error_app2 by lia. rewrite Nat.sub_diag. cbn [nth_error bind].
    rewrite repeat_length, Nat.eqb_refl. cbn [assert_ bind]. intros H. injection H as <- <-.
    exists ob, (repeat p n). cbn. rewrite repeat_length, nth_error_app2 by lia. rewrite Nat.sub_diag. cbn. auto 10.
  - destruct (nth_error (s_ocps s) prob) as [ob|] eqn:E; [|discriminate]. cbn [bind].
    destruct (nth_error (s_lists s) a) as [l|] eqn:El; [|discriminate]. cbn [bind].
    destruct (Nat.eqb_spec (length l) n) as [Hl|]; [|discriminate]. cbn [assert_ bind]. intros H. injection H as <- <-.
    exists ob, l. cbn. auto 10.
Qed.

Lemma make_mpo_iff s prob n po cf : (prob < length (s_ocps s))%nat ->
  ((exists s' m, make_mpo (N := N) s prob n po cf = Ok (s', m)) <->
   match po with RInt _ => True | RList a => exists l, nth_error (s_lists s) a = Some l /\ length l = n end).
Proof.
  intros Hp. apply nth_error_Some in Hp. destruct (nth_error (s_ocps s) prob) as [ob|] eqn:E; [|congruence].
  unfold make_mpo, at_. destruct po as [p|a].
  - split; [auto|intros _]. rewrite E. cbn [bind]. rewrite nth_error_app2 by lia. rewrite Nat.sub_diag. cbn [nth_error bind].
    rewrite repeat_length, Nat.eqb_refl. cbn. eauto.
  - rewrite E. cbn [bind]. destruct (nth_error (s_lists s) a) as [l|]; cbn [bind].
    + destruct (Nat.eqb_spec (length l) n); cbn; split; intros H; eauto.
      * destruct H as (? & ? & H). discriminate.
      * destruct H as (l' & H & ?). injection H as <-. contradiction.
    + split; [intros (? & ? & H); discriminate|intros (? & H & _); discriminate].
Qed.

(** attributes other than the functions are copied; functions given by the user are pure *)
Lemma copy_thm s prob n po cf s' m us ob o0 : make_mpo (N := N) s prob n po cf = Ok (s', m) ->
  nth_error (s_ocps s) prob = Some ob -> ocp_now s prob = Some o0 ->
  (forall u, In u us -> holds (length (s_ocps s)) (length (s_lists s)) u) ->
  (exists d, ocp_now (usteps s' us) (m_ocp m) = Some (with_dyn o0 d)) /\
  ((forall d, In d (ob_dyn ob) -> exists f, d = DUser f) -> ocp_now (usteps s' us) (m_ocp m) = Some o0).
Proof.
  intros Hm Hob Ho Hus. destruct (make_mpo_inv _ _ _ _ _ _ _ Hm) as (ob' & l & E1 & E2 & E3 & _).
  assert (ob' = ob) by congruence. subst ob'. unfold ocp_now in Ho. rewrite Hob in Ho. injection Ho as <-.
  unfold ocp_now. rewrite E3, (usteps_ocp _ _ _ _ Hus), E2, nth_error_app2, Nat.sub_diag by lia. cbn [nth_error].
  split; [eexists; reflexivity|]. intros Hd. f_equal. f_equal. apply map_ext_in. intros d Hin. destruct (Hd d Hin) as [f ->]. reflexivity.
Qed.
Lemma int_orders_thm s prob n p cf s' m us : make_mpo (N := N) s prob n (RInt p) cf = Ok (s', m) ->
  (forall u, In u us -> holds (length (s_ocps s)) (length (s_lists s)) u) ->
  exists o, mpo_now (usteps s' us) m = Some (Mpo o n (repeat p n) cf).
Proof.
  intros Hm Hus. destruct (make_mpo_inv _ _ _ _ _ _ _ Hm) as (ob & l & E1 & E2 & E3 & E4 & E5 & E6 & E7 & E8 & E9).
  unfold mpo_now, ocp_now. rewrite E3, (usteps_ocp _ _ _ _ Hus), E2, nth_error_app2, Nat.sub_diag by lia. cbn [nth_error].
  rewrite E9, (usteps_list _ _ _ _ Hus), <- E9, E7, E8, E4, E5. eauto.
Qed.
(** a new problem: nothing else changes, and the object stands for the new problem *)
Theorem make_ocp_thm (s : store N) nx nu nph na s' a : make_ocp s nx nu nph na = Ok (s', a) ->
  nth_error (s_ocps s) a = None /\ (forall b, b <> a -> nth_error (s_ocps s') b = nth_error (s_ocps s) b) /\ s_lists s' = s_lists s /\
  exists o, new_ocp nx nu nph na = Ok o /\ ocp_now s' a = Some o /\
    forall ph f x u t p, nth_error (o_dyn o) ph = Some f -> f x u t p = Ok (repeat n0 nx).
Proof.
  unfold make_ocp. destruct (new_ocp nx nu nph na) as [o|e] eqn:Eo; [|discriminate]. cbn [bind]. intros E. injection E as <- <-. cbn [s_ocps s_lists].
  split; [apply nth_error_None; lia|]. split.
  { intros b Hb. destruct (lt_dec b (length (s_ocps s))) as [H|H]; [apply nth_error_app1; exact H|].
    rewrite (proj2 (nth_error_None (s_ocps s) b)) by lia. apply nth_error_None. rewrite app_length. cbn. lia. }
  split; [reflexivity|]. exists o. split; [reflexivity|].
  assert (X : nth_error (s_ocps s ++ [OcpObj o (repeat (DDefault (length (s_ocps s))) nph)]) (length (s_ocps s)) = Some (OcpObj o (repeat (DDefault (length (s_ocps s))) nph)))
    by (rewrite nth_error_app2, Nat.sub_diag by lia; reflexivity).
  destruct nph as [|m]; [discriminate|]. unfold new_ocp in Eo. injection Eo as Eo. split.
  - unfold ocp_now. cbn [s_ocps]. rewrite X. f_equal. cbn [ob_data ob_dyn].
    assert (M : forall A B (f : A -> B) x n, map f (repeat x n) = repeat (f x) n) by (intros A B f x n; induction n as [|n IH]; cbn; [|rewrite IH]; reflexivity). rewrite M.
    assert (C : call_dyn (Store (s_ocps s ++ [OcpObj o (repeat (DDefault (length (s_ocps s))) (S m))]) (s_lists s)) (DDefault (length (s_ocps s))) = fun _ _ _ _ => Ok (repeat n0 nx)).
    { unfold call_dyn. cbn [s_ocps]. rewrite X. cbn [ob_data]. rewrite <- Eo. reflexivity. }
    rewrite C, <- Eo. reflexivity.
  - intros ph f x u t p Hf. rewrite <- Eo in Hf. cbn [o_dyn] in Hf. apply nth_error_In in Hf. apply (repeat_spec (S m)) in Hf. subst f. reflexivity.
Qed.
End Any.

Definition nx_to (o : ocp Rnum) (nx : nat) : ocp Rnum :=
  Ocp nx (o_nu o) (o_na o) (o_nph o) (o_dyn o) (o_path o) (o_mayer o) (o_run o) (o_term o) (o_links o)
    (o_scale_x o) (o_scale_u o) (o_scale_a o) (o_scale_t o) (o_x00 o) (o_xf0 o) (o_u00 o) (o_uf0 o)
    (o_t00 o) (o_tf0 o) (o_a0 o) (o_lbx o) (o_ubx o) (o_lbu o) (o_ubu o) (o_lba o) (o_uba o)
    (o_lbt0 o) (o_ubt0 o) (o_lbtf o) (o_ubtf o) (o_lbe o) (o_ube o) (o_diff_u o) (o_lbdu o) (o_ubdu o)
    (o_midu o) (o_ducont o).
Lemma default_shared (cf : ccfg Rnum) : exists s prob s' m ob,
  make_ocp (Store [] []) 1 1 1 0 = Ok (s, prob) /\ make_mpo s prob 1 (RInt 1) cf = Ok (s', m) /\ nth_error (s_ocps s) prob = Some ob /\ let s2 := usteps s' [USetOcp prob (OcpObj (nx_to (ob_data ob) 2) (ob_dyn ob))] in
  exists o1 o2 f1 f2, ocp_now s' (m_ocp m) = Some o1 /\ ocp_now s2 (m_ocp m) = Some o2 /\   nth_error (o_dyn o1) 0 = Some f1 /\ nth_error (o_dyn o2) 0 = Some f2 /\ o_nx o1 = 1%nat /\ o_nx o2 = 1%nat /\   f1 [] [] 0%R None = Ok [0%R] /\ f2 [] [] 0%R None = Ok [0%R; 0%R].
Proof.
  do 5 eexists. split; [reflexivity|]. split; [reflexivity|]. split; [reflexivity|]. do 4 eexists.
  split; [reflexivity|]. split; [reflexivity|]. split; [reflexivity|]. split; [reflexivity|]. auto.
Qed.
Lemma orders_shared (cf : ccfg Rnum) : exists s prob s' m mp1 mp2,
  make_ocp (Store [] [[3%nat]]) 1 1 1 0 = Ok (s, prob) /\ make_mpo s prob 1 (RList 0) cf = Ok (s', m) /\ mpo_now s' m = Some mp1 /\ mpo_now (usteps s' [USetList 0 [4; 4]%nat]) m = Some mp2 /\ mp_orders mp1 = [3%nat] /\ mp_orders mp2 = [4; 4]%nat /\ mp_nseg mp2 = 1%nat.
Proof. do 6 eexists. repeat (split; [reflexivity|]). reflexivity. Qed.
