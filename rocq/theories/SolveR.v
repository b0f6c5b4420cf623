(** Lemmas on solving. *)
From Coq Require Import Reals Lra Lia Bool String List Arith ZArith.
From Verif Require Import Num PyList Mat Poly Roots Colloc Ocp Transcribe Solve SpecSolve NumR NlpMain.
Import ListNotations.
Open Scope string_scope.
Open Scope list_scope.

(** ** dictionaries *)
Section Dict.
Context {V : Type}.
Notation get := (dget (V := V) String.eqb).
Notation set := (dset (V := V) String.eqb).
Lemma dget_dset d k v k' : get (set d k v) k' = if String.eqb k' k then Some v else get d k'.
Proof.
  induction d as [|[a b] d IH]; cbn; [reflexivity|]. destruct (String.eqb_spec k a) as [<-|Hk]; cbn.
  - now destruct (String.eqb_spec k' k).
  - rewrite IH. destruct (String.eqb_spec k' a) as [->|]; [|reflexivity]. destruct (String.eqb_spec a k); [congruence|reflexivity].
Qed.
Lemma dget_in d k v : get d k = Some v -> In (k, v) d.
Proof.
  induction d as [|[a b] d IH]; cbn; [discriminate|]. destruct (String.eqb_spec k a) as [->|]; [intros [= ->]; now left|]. intros H; right; auto.
Qed.
Lemma dget_notin d k : ~ In k (map fst d) -> get d k = None.
Proof.
  induction d as [|[a b] d IH]; cbn; [auto|]. intros H. destruct (String.eqb_spec k a) as [->|]; [tauto|]. apply IH. tauto.
Qed.
Lemma fold_dset (o d : list (string * V)) k : NoDup (map fst o) ->
  get (fold_left (fun d e => set d (fst e) (snd e)) o d) k = match get o k with Some v => Some v | None => get d k end.
Proof.
  revert d; induction o as [|[a b] o IH]; intros d H; cbn; [reflexivity|]. inversion H; subst. rewrite IH by assumption. rewrite dget_dset.
  cbn in *. destruct (String.eqb_spec k a) as [->|]; [|reflexivity]. now rewrite dget_notin by assumption.
Qed.
Lemma find_app {A} (f : A -> bool) l l' : find f (l ++ l') = match find f l with Some a => Some a | None => find f l' end.
Proof. induction l as [|a l IH]; cbn; [reflexivity|]. now destruct (f a). Qed.
Lemma last_entry_snoc (d : list (string * V)) e ks : last_entry (d ++ [e]) ks =
  if existsb (String.eqb (fst e)) ks then Some (snd e) else last_entry d ks.
Proof. unfold last_entry. rewrite rev_app_distr. cbn. now destruct (existsb _ ks). Qed.
Lemma last_entry_nil ks : last_entry (V := V) [] ks = None.
Proof. reflexivity. Qed.
(** with unique keys, of which one is present *)
Lemma last_entry_unique (d : list (string * V)) ks k v : NoDup (map fst d) -> In (k, v) d -> In k ks ->
  (forall k', In k' ks -> k' <> k -> ~ In k' (map fst d)) -> last_entry d ks = Some v.
Proof.
  intros Hd Hin Hk Ho. induction d as [|e d IH] using rev_ind; [destruct Hin|].
  rewrite last_entry_snoc. rewrite map_app in Hd, Ho. cbn in Hd, Ho.
  apply NoDup_remove in Hd. rewrite app_nil_r in Hd. destruct Hd as [Hd He].
  apply in_app_iff in Hin. destruct Hin as [Hin|[->|[]]].
  - destruct (existsb _ ks) eqn:E.
    + apply existsb_exists in E. destruct E as (k' & H1 & H2). apply String.eqb_eq in H2. subst k'. exfalso.
      destruct (String.eqb_spec (fst e) k) as [Ek|Hne]; [apply He; rewrite Ek; exact (in_map fst _ _ Hin)|].
      apply (Ho (fst e) H1 Hne). apply in_or_app. cbn. auto.
    + apply IH; auto. intros k' H1 H2 H3. apply (Ho k' H1 H2). apply in_or_app. auto.
  - cbn. assert (E : existsb (String.eqb k) ks = true) by (apply existsb_exists; exists k; split; [auto|apply String.eqb_refl]).
    now rewrite E.
Qed.
Lemma last_entry_none (d : list (string * V)) ks : last_entry d ks = None <-> (forall k, In k ks -> ~ In k (map fst d)).
Proof.
  induction d as [|e d IH] using rev_ind; [split; [intros _ k _ []|reflexivity]|].
  rewrite last_entry_snoc, map_app. cbn. destruct (existsb _ ks) eqn:E.
  - apply existsb_exists in E. destruct E as (k' & H1 & H2). apply String.eqb_eq in H2. subst k'. split; [discriminate|].
    intros H. exfalso. apply (H _ H1). apply in_or_app. cbn. auto.
  - rewrite IH. split.
    + intros H k Hk Hin. apply in_app_iff in Hin. destruct Hin as [Hin|[Hin|[]]]; [exact (H k Hk Hin)|]. subst k.
      assert (existsb (String.eqb (fst e)) ks = true) by (apply existsb_exists; exists (fst e); split; [auto|apply String.eqb_refl]). congruence.
    + intros H k Hk Hin. apply (H k Hk). apply in_or_app. auto.
Qed.
End Dict.

(** ** C22 *)
Section Warm.
Context {N : num}.
Definition targets (t : string) : list string :=
  if String.eqb t "x0" then ["x"; "x0"] else if String.eqb t "lam_x0" then ["lam_x"; "lam_x0"]
  else if String.eqb t "lam_g0" then ["lam_g"; "lam_g0"] else [].
Lemma key_target k t : match dget String.eqb key_target_pair k with Some t' => String.eqb t t' | None => false end
  = existsb (String.eqb k) (targets t).
Proof.
  unfold targets. cbn.
  destruct (String.eqb_spec k "x") as [->|H1]; [cbn; destruct (String.eqb_spec t "x0") as [->|]; [reflexivity|destruct (String.eqb_spec t "lam_x0"); [reflexivity|now destruct (String.eqb_spec t "lam_g0")]]|].
  destruct (String.eqb_spec k "x0") as [->|H2]; [cbn; destruct (String.eqb_spec t "x0") as [->|]; [reflexivity|destruct (String.eqb_spec t "lam_x0"); [reflexivity|now destruct (String.eqb_spec t "lam_g0")]]|].
  destruct (String.eqb_spec k "lam_x") as [->|H3]; [cbn; destruct (String.eqb_spec t "x0") as [->|]; [reflexivity|destruct (String.eqb_spec t "lam_x0"); [reflexivity|now destruct (String.eqb_spec t "lam_g0")]]|].
  destruct (String.eqb_spec k "lam_x0") as [->|H4]; [cbn; destruct (String.eqb_spec t "x0") as [->|]; [reflexivity|destruct (String.eqb_spec t "lam_x0"); [reflexivity|now destruct (String.eqb_spec t "lam_g0")]]|].
  destruct (String.eqb_spec k "lam_g") as [->|H5]; [cbn; destruct (String.eqb_spec t "x0") as [->|]; [reflexivity|destruct (String.eqb_spec t "lam_x0") as [->|]; [reflexivity|now destruct (String.eqb_spec t "lam_g0")]]|].
  destruct (String.eqb_spec k "lam_g0") as [->|H6]; [cbn; destruct (String.eqb_spec t "x0") as [->|]; [reflexivity|destruct (String.eqb_spec t "lam_x0") as [->|]; [reflexivity|now destruct (String.eqb_spec t "lam_g0")]]|].
  destruct (String.eqb t "x0"); [|destruct (String.eqb t "lam_x0"); [|destruct (String.eqb t "lam_g0"); [|reflexivity]]]; cbn;
  rewrite ?(proj2 (String.eqb_neq _ _) H1), ?(proj2 (String.eqb_neq _ _) H2), ?(proj2 (String.eqb_neq _ _) H3), ?(proj2 (String.eqb_neq _ _) H4),
    ?(proj2 (String.eqb_neq _ _) H5), ?(proj2 (String.eqb_neq _ _) H6); reflexivity.
Qed.
Lemma warm_copies (s : sdict (N := N)) t : dget String.eqb (fold_left warm_copy s []) t = last_entry s (targets t).
Proof.
  induction s as [|e s IH] using rev_ind; [reflexivity|]. rewrite fold_left_app, last_entry_snoc. cbn [fold_left]. unfold warm_copy at 1.
  pose proof (key_target (fst e) t) as K. destruct (dget String.eqb key_target_pair (fst e)) as [t'|].
  - rewrite dget_dset, IH, K. reflexivity.
  - now rewrite <- K.
Qed.
Lemma last_entry_no (s : sdict (N := N)) : last_entry s [] = None.
Proof. apply last_entry_none. intros k []. Qed.
Lemma warm_spec (mp : mpo N) (s : sdict) r : warm_start mp (Some s) = Ok r ->
  exists g, (last_entry s ["x"; "x0"] = None -> initialize_solution mp = Ok g) /\ warm_ok s g r.
Proof.
  unfold warm_start. cbn [bind]. unfold dmem. pose proof (warm_copies s "x0") as K0. cbn in K0.
  assert (G : forall k, dget String.eqb (fold_left warm_copy s []) k =
     if String.eqb k "x0" then last_entry s ["x"; "x0"] else if String.eqb k "lam_x0" then last_entry s ["lam_x"; "lam_x0"]
     else if String.eqb k "lam_g0" then last_entry s ["lam_g"; "lam_g0"] else None).
  { intros k. rewrite warm_copies. unfold targets. destruct (String.eqb k "x0"); [reflexivity|]. destruct (String.eqb k "lam_x0"); [reflexivity|].
    destruct (String.eqb k "lam_g0"); [reflexivity|]. apply last_entry_no. }
  rewrite K0. destruct (last_entry s ["x"; "x0"]) as [v|] eqn:El.
  - intros [= <-]. exists []. split; [discriminate|]. intros k. rewrite G. destruct (String.eqb k "x0"); [now rewrite El|reflexivity].
  - destruct (initialize_solution mp) as [z|e]; [|discriminate]. cbn [bind]. intros [= <-]. exists z. split; [auto|].
    intros k. rewrite dget_dset, G. destruct (String.eqb k "x0"); [now rewrite El|reflexivity].
Qed.
Lemma warm_ok_x (mp : mpo N) (s : sdict) : last_entry s ["x"; "x0"] <> None -> exists r, warm_start mp (Some s) = Ok r.
Proof.
  intros H. unfold warm_start. cbn [bind]. unfold dmem. rewrite warm_copies. cbn. destruct (last_entry s _); [eauto|congruence].
Qed.
Lemma warm_none (mp : mpo N) r : warm_start mp None = Ok r <-> exists z, initialize_solution mp = Ok z /\ r = [("x0", z)].
Proof.
  unfold warm_start. destruct (initialize_solution mp) as [z|e]; cbn; split; intros H; try discriminate.
  - injection H as <-. eauto.
  - destruct H as (z' & [= ->] & ->). reflexivity.
  - destruct H as (z' & H & _). discriminate.
Qed.

(** ** C23 *)
Lemma options_spec (solver : string) (user : odict (N := N)) : NoDup (map fst user) -> options_ok solver user (solver_options solver user).
Proof.
  intros H k. unfold solver_options. rewrite fold_dset by assumption. destruct (dget String.eqb user k); [reflexivity|].
  unfold default_options. now destruct (String.eqb solver "ipopt").
Qed.
End Warm.

(** ** base_solve *)
Section Run.
Context {N : num}.
Variables (E : env (N := N)) (mp : mpo N) (mute : bool).

Lemma mbind_inv {A B} (m : M (N := N) A) (f : A -> M B) s s' r : mbind m f s = (s', r) ->
  (exists a s1, m s = (s1, Ok a) /\ f a s1 = (s', r)) \/ (exists e, m s = (s', Raise e) /\ r = Raise e).
Proof. unfold mbind. destruct (m s) as [s1 [a|e]]; intros H; [left; eauto|right]. injection H as <- <-. eauto. Qed.

Lemma create_inv name opts s s' r : create_solver E name opts s = (s', r) ->
  st_dicts s' = st_dicts s /\ st_calls s' = st_calls s /\ st_sw s' = st_sw s /\
  match r with
  | Ok _ => st_solver s' = Some (Nlpsol name (solver_options name opts))
  | Raise _ => st_solver s' = st_solver s
  end.
Proof.
  unfold create_solver, mbind, lift, set_solver. destruct (e_build E) as [u|e]; [|intros [= <- <-]; auto].
  destruct (e_nlpsol E name _) as [u'|e]; intros [= <- <-]; cbn; auto.
Qed.
Lemma create_ok name opts s : e_build E = Ok tt -> e_nlpsol E name (solver_options name opts) = Ok tt ->
  exists s', create_solver E name opts s = (s', Ok tt).
Proof. intros H1 H2. unfold create_solver, mbind, lift. rewrite H1, H2. unfold set_solver. eauto. Qed.

(** after the optional creation of the solver *)
Definition tail_solve (a : sargs) : M (N := N) sdict :=
  mbind (get (N := N)) (fun s =>
  mbind (lift (match dget String.eqb (dict_at s (a_mopts a)) "nlp_sw_params" with
               | Some v => as_nums v
               | None => Ok (equal_widths mp) end)) (fun sw =>
  mbind (set_sw sw) (fun _ =>
  mbind (lift (warm_start mp (a_init a))) (fun inputs =>
  mbind (current_solver (N := N)) (fun v =>
  mbind (call_solver E v (dset String.eqb inputs "p" sw)) (fun sol =>
  mbind (lift (print_cost mute sol)) (fun _ => ret sol))))))).

(** what a solve call does after that *)
Definition tail_ok (a : sargs) (s s' : ost (N := N)) (r : res sdict) : Prop :=
  st_dicts s' = st_dicts s /\ st_solver s' = st_solver s /\
  ((st_calls s' = st_calls s /\ exists e, r = Raise e) \/
   exists c i w, st_calls s' = st_calls s ++ [c] /\ st_solver s = Some (ca_solver c) /\
     warm_start mp (a_init a) = Ok i /\ ca_in c = dset String.eqb i "p" w /\ st_sw s' = Some w /\
     match dget String.eqb (dict_at s (a_mopts a)) "nlp_sw_params" with
     | Some v => v = VNums w
     | None => w = equal_widths mp
     end /\
     (r = ca_out c \/ exists sol, ca_out c = Ok sol /\ mute = false /\ dget String.eqb sol "f" = None /\ r = Raise KeyError)).
Lemma tail_inv a s s' r : tail_solve a s = (s', r) -> tail_ok a s s' r.
Proof.
  unfold tail_solve, tail_ok, mbind at 1, get. set (W := match dget _ _ "nlp_sw_params" with Some v => as_nums v | None => _ end).
  unfold mbind at 1, lift at 1. destruct W as [w|e] eqn:EW; [|intros [= <- <-]; split; [reflexivity|]; split; [reflexivity|]; left; eauto].
  unfold mbind at 1, set_sw. unfold mbind at 1, lift at 1.
  destruct (warm_start mp (a_init a)) as [i|e] eqn:Ei; [|intros [= <- <-]; split; [reflexivity|]; split; [reflexivity|]; left; cbn; eauto].
  unfold mbind at 1. unfold current_solver at 1, mbind at 1, get. cbn [st_solver].
  destruct (st_solver s) as [v|] eqn:Ev; cbn [ret lift]; [|intros [= <- <-]; split; [reflexivity|]; split; [cbn; auto|]; left; cbn; eauto].
  unfold mbind at 1, call_solver. cbn [st_solver st_sw st_iter st_info st_calls st_dicts].
  set (c := Call v _ _).
  assert (HW : match dget String.eqb (dict_at s (a_mopts a)) "nlp_sw_params" with Some v => v = VNums w | None => w = equal_widths mp end).
  { unfold W in EW. destruct (dget _ _ "nlp_sw_params") as [x|].
    - destruct x; cbn in EW; try discriminate. congruence.
    - congruence. }
  destruct (e_run E (st_calls s) v _) as [sol|e] eqn:Er.
  - unfold mbind, lift, print_cost, ret. intros HH. split; [|split; [|right; exists c, i, w]].
    + destruct mute; [|unfold dat in HH; destruct (dget String.eqb sol "f"); cbn in HH]; injection HH as <- <-; reflexivity.
    + destruct mute; [|unfold dat in HH; destruct (dget String.eqb sol "f"); cbn in HH]; injection HH as <- <-; cbn; auto.
    + destruct mute; [|unfold dat in HH; destruct (dget String.eqb sol "f") eqn:Ef; cbn in HH]; injection HH as <- <-; cbn;
      (do 6 (split; [auto|])); auto. right. exists sol. auto.
  - intros [= <- <-]. split; [reflexivity|]. split; [cbn; auto|]. right. exists c, i, w. cbn. do 6 (split; [auto|]). auto.
Qed.
Lemma base_inv a s s' r : base_solve E mp mute a s = (s', r) ->
  st_dicts s' = st_dicts s /\
  (exists s1, st_dicts s1 = st_dicts s /\ st_calls s1 = st_calls s /\
   ((s1 = s' /\ (exists e, r = Raise e) /\ st_solver s' = st_solver s) \/
    tail_ok a s1 s' r /\
    st_solver s1 = match st_solver s, a_reinit a with
                   | Some v, false => Some v
                   | _, _ => Some (Nlpsol (a_solver a) (solver_options (a_solver a) (dict_at s (a_nopts a))))
                   end)).
Proof.
  intros Hr. change (mbind (get (N := N)) (fun s0 => mbind (match st_solver s0, a_reinit a with
         | Some _, false => ret tt
         | _, _ => create_solver E (a_solver a) (dict_at s0 (a_nopts a)) end) (fun _ => tail_solve a)) s = (s', r)) in Hr.
  unfold mbind at 1, get in Hr. apply mbind_inv in Hr. destruct Hr as [([] & s1 & H1 & H2)|(e & H1 & H2)].
  - apply tail_inv in H2. assert (K : st_dicts s1 = st_dicts s /\ st_calls s1 = st_calls s /\
      st_solver s1 = match st_solver s, a_reinit a with
                   | Some v, false => Some v
                   | _, _ => Some (Nlpsol (a_solver a) (solver_options (a_solver a) (dict_at s (a_nopts a)))) end).
    { destruct (st_solver s) as [v|] eqn:Ev; [destruct (a_reinit a)|].
      - apply create_inv in H1. intuition.
      - injection H1 as <-. auto.
      - apply create_inv in H1. intuition. }
    destruct K as (K1 & K2 & K3). split; [destruct H2 as (H2 & _); congruence|]. exists s1. split; [auto|]. split; [auto|]. right. auto.
  - subst r. assert (K : st_dicts s' = st_dicts s /\ st_calls s' = st_calls s /\ st_solver s' = st_solver s).
    { destruct (st_solver s) as [v|] eqn:Ev; [destruct (a_reinit a)|]; try discriminate; apply create_inv in H1; intuition congruence. }
    destruct K as (K1 & K2 & K3). split; [auto|]. exists s'. split; [auto|]. split; [auto|]. left. eauto.
Qed.

(** ** C24: sequences of calls *)
Variable H : hcfg (N := N).
Notation step := (step E mp mute H).
Notation steps := (steps E mp mute H).
Lemma step_solve s a : step s (OSolve a) = fst (base_solve E mp mute a s).
Proof. reflexivity. Qed.
Lemma steps_app s l l' : steps s (l ++ l') = steps (steps s l) l'.
Proof. apply fold_left_app. Qed.
Lemma written_app d l l' : written d (l ++ l') = written (written (N := N) d l) l'.
Proof. revert d; induction l as [|x l IH]; intros d; [reflexivity|]. destruct x; cbn; apply IH. Qed.
Lemma step_dicts s x : base_op x -> st_dicts (step s x) = written (st_dicts s) [x].
Proof.
  destruct x as [a|a n|i d]; [|intros []|reflexivity]. intros _. rewrite step_solve. destruct (base_solve E mp mute a s) as [s' r] eqn:Eb.
  apply base_inv in Eb. destruct Eb as [Eb _]. exact Eb.
Qed.
Lemma steps_dicts s l : (forall x, In x l -> base_op x) -> st_dicts (steps s l) = written (st_dicts s) l.
Proof.
  intros Hl. induction l as [|x l IH] using rev_ind; [reflexivity|]. rewrite steps_app, written_app, <- IH by (intros; apply Hl, in_or_app; auto).
  apply step_dicts, Hl, in_or_app. cbn. auto.
Qed.
Lemma step_solver s x v : base_op x -> keeps_solver x -> st_solver s = Some v -> st_solver (step s x) = Some v.
Proof.
  destruct x as [a|a n|i d]; [|intros []|auto]. intros _ Hk Hs. cbn in Hk. rewrite step_solve. destruct (base_solve E mp mute a s) as [s' r] eqn:Eb.
  apply base_inv in Eb. destruct Eb as (_ & s1 & _ & _ & [(_ & _ & E1)|((_ & E1 & _) & E2)]); cbn; [congruence|]. rewrite E1, E2, Hs, Hk. reflexivity.
Qed.
Lemma steps_solver l s v : (forall x, In x l -> base_op x /\ keeps_solver x) -> st_solver s = Some v -> st_solver (steps s l) = Some v.
Proof.
  revert s; induction l as [|x l IH]; intros s Hl Hs; [exact Hs|]. cbn. apply IH; [intros; apply Hl; now right|].
  apply step_solver; auto; apply Hl; now left.
Qed.
Lemma steps_none l s : (forall x, In x l -> no_solve x) -> st_solver (steps s l) = st_solver s.
Proof.
  revert s; induction l as [|x l IH]; intros s Hl; [reflexivity|]. cbn. etransitivity; [apply IH; intros; apply Hl; now right|].
  specialize (Hl x (or_introl eq_refl)). destruct x; cbn in *; tauto.
Qed.
(** the solver that a creating call leaves behind *)
Lemma creates s a : (st_solver s = None \/ a_reinit a = true) ->
  let opts := solver_options (a_solver a) (dict_at s (a_nopts a)) in
  e_build E = Ok tt -> e_nlpsol E (a_solver a) opts = Ok tt ->
  st_solver (step s (OSolve a)) = Some (Nlpsol (a_solver a) opts).
Proof.
  intros Hc opts E1 E2. rewrite step_solve. destruct (base_solve E mp mute a s) as [s' r] eqn:Eb. cbn [fst].
  assert (K : exists s1, st_solver s1 = Some (Nlpsol (a_solver a) opts) /\ tail_solve a s1 = (s', r)).
  { unfold base_solve in Eb. unfold mbind at 1, get in Eb.
    destruct (create_ok (a_solver a) (dict_at s (a_nopts a)) s E1 E2) as [s1 Es]. exists s1.
    split; [apply create_inv in Es; destruct Es as (_ & _ & _ & Es); exact Es|]. unfold mbind at 1 in Eb.
    destruct (st_solver s) as [v|]; [destruct (a_reinit a); [|destruct Hc; congruence]|]; rewrite Es in Eb; exact Eb. }
  destruct K as (s1 & K1 & K2). apply tail_inv in K2. destruct K2 as (_ & -> & _). exact K1.
Qed.
Lemma reuse dicts pre a mid b sol : (forall x, In x (pre ++ OSolve a :: mid) -> base_op x) ->
  (forall x, In x pre -> no_solve x) \/ a_reinit a = true ->
  (forall x, In x mid -> keeps_solver x) -> a_reinit b = false ->
  let user := nth (a_nopts a) (written dicts pre) [] in
  e_build E = Ok tt -> e_nlpsol E (a_solver a) (solver_options (a_solver a) user) = Ok tt ->
  let s := steps (fresh dicts) (pre ++ OSolve a :: mid) in
  snd (base_solve E mp mute b s) = Ok sol ->
  exists c, st_calls (step s (OSolve b)) = st_calls s ++ [c] /\ ca_out c = Ok sol /\
    ca_solver c = Nlpsol (a_solver a) (solver_options (a_solver a) user) /\
    st_sw (step s (OSolve b)) = used_widths c.
Proof.
  intros Hb Hfirst Hmid Hrb user E1 E2 s Hsol.
  assert (Hs : st_solver s = Some (Nlpsol (a_solver a) (solver_options (a_solver a) user))).
  { unfold s. rewrite steps_app. cbn [Solve.steps fold_left]. apply steps_solver.
    - intros x Hx. split; [apply Hb, in_or_app; right; now right|now apply Hmid].
    - assert (Ed : dict_at (steps (fresh dicts) pre) (a_nopts a) = user).
      { unfold dict_at. rewrite steps_dicts by (intros; apply Hb, in_or_app; auto). reflexivity. }
      pose proof (creates (steps (fresh dicts) pre) a) as K. rewrite Ed in K. apply K; auto.
      destruct Hfirst as [Hf|Hf]; [left|right; exact Hf]. rewrite steps_none by exact Hf. reflexivity. }
  rewrite step_solve. destruct (base_solve E mp mute b s) as [s' r] eqn:Eb. cbn [fst snd] in *. subst r.
  apply base_inv in Eb. destruct Eb as (_ & s1 & _ & Ec & [(_ & (e & He) & _)|((_ & _ & [(_ & e & He)|(c & i & w & H1 & H2 & H3 & H4 & H5 & H6 & H7)]) & Es1)]); try discriminate.
  exists c. split; [congruence|]. split; [destruct H7 as [H7|(x & _ & _ & _ & H7)]; congruence|]. rewrite Hs, Hrb in Es1. split; [congruence|].
  rewrite H5. unfold used_widths. rewrite H4, dget_dset, String.eqb_refl. reflexivity.
Qed.
Lemma creating_call s b sol : st_solver s = None \/ a_reinit b = true -> snd (base_solve E mp mute b s) = Ok sol ->
  exists c, st_calls (step s (OSolve b)) = st_calls s ++ [c] /\ ca_out c = Ok sol /\
    ca_solver c = Nlpsol (a_solver b) (solver_options (a_solver b) (dict_at s (a_nopts b))) /\
    st_sw (step s (OSolve b)) = used_widths c.
Proof.
  intros Hn Hsol. rewrite step_solve. destruct (base_solve E mp mute b s) as [s' r] eqn:Eb. cbn [fst snd] in *. subst r.
  apply base_inv in Eb. destruct Eb as (_ & s1 & _ & Ec & [(_ & (e & He) & _)|((_ & _ & [(_ & e & He)|(c & i & w & H1 & H2 & H3 & H4 & H5 & H6 & H7)]) & Es1)]); try discriminate.
  exists c. split; [congruence|]. split; [destruct H7 as [H7|(x & _ & _ & _ & H7)]; congruence|]. split.
  - destruct (st_solver s) as [v|]; [|congruence]. destruct (a_reinit b); [congruence|]. destruct Hn; congruence.
  - rewrite H5. unfold used_widths. rewrite H4, dget_dset, String.eqb_refl. reflexivity.
Qed.
(** the widths a successful call uses, and what it is started from *)
Lemma call_inputs s a sol : snd (base_solve E mp mute a s) = Ok sol -> exists c i w,
  st_calls (step s (OSolve a)) = st_calls s ++ [c] /\ ca_out c = Ok sol /\
  warm_start mp (a_init a) = Ok i /\ ca_in c = dset String.eqb i "p" w /\ st_sw (step s (OSolve a)) = Some w /\
  match dget String.eqb (dict_at s (a_mopts a)) "nlp_sw_params" with
  | Some v => v = VNums w
  | None => w = equal_widths mp
  end.
Proof.
  intros Hsol. rewrite step_solve. destruct (base_solve E mp mute a s) as [s' r] eqn:Eb. cbn [fst snd] in *. subst r.
  apply base_inv in Eb. destruct Eb as (_ & s1 & Ed & Ec & [(_ & (e & He) & _)|((_ & _ & [(_ & e & He)|(c & i & w & H1 & H2 & H3 & H4 & H5 & H6 & H7)]) & Es1)]); try discriminate.
  exists c, i, w. split; [congruence|]. split; [destruct H7 as [H7|(x & _ & _ & _ & H7)]; congruence|].
  unfold dict_at in *. rewrite Ed in H6. auto.
Qed.
End Run.
