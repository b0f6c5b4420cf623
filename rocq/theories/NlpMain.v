(** The six blocks of every phase inside g, and further lemmas behind the property theorems. *)
From Coq Require Import Reals Lra Lia String Bool.
From Coquelicot Require Import Coquelicot.
From Coq Require Import List.
From Verif Require Import Num PyList Mat Poly Roots Colloc Ocp Transcribe Spec SpecOcp NumR ListR CollocR CollocThm
  MeshR BlockR DiscR NlpR NlpThm GuessR OcpR.
Import ListNotations.
Open Scope R_scope.

(** ** sub-blocks of stacked constraints *)
Lemma sub_skip (a b : con Rnum) s l : balanced a -> sub_con (con_app a b) (length (c_g a) + s) l = sub_con b s l.
Proof.
  intros [H1 H2]. unfold sub_con. cbn [con_app c_g c_lo c_hi]. nred.
  assert (E : forall {A} (u v : list A) k, length u = k -> skipn (k + s) (u ++ v) = skipn s v).
  { intros A u v k <-. rewrite skipn_app. rewrite skipn_all2 by lia. cbn. f_equal. lia. }
  rewrite (E _ _ _ _ eq_refl), (E _ _ _ _ H1), (E _ _ _ _ H2). reflexivity.
Qed.
Lemma sub_inside (a b : con Rnum) s l : balanced a -> (s + l <= length (c_g a))%nat -> sub_con (con_app a b) s l = sub_con a s l.
Proof.
  intros [H1 H2] H. unfold sub_con. cbn [con_app c_g c_lo c_hi]. nred.
  assert (E : forall {A} (u v : list A), length u = length (c_g a) -> firstn l (skipn s (u ++ v)) = firstn l (skipn s u)).
  { intros A u v Hu. rewrite skipn_app, firstn_app, skipn_length. nred.
    replace (l - (length u - s))%nat with 0%nat by (nred; rewrite Hu; nred; lia). cbn. apply app_nil_r. }
  rewrite (E _ _ _ eq_refl), (E _ _ _ H1), (E _ _ _ H2). reflexivity.
Qed.
Lemma sub_all (a : con Rnum) : balanced a -> sub_con a 0 (length (c_g a)) = a.
Proof. intros [H1 H2]. destruct a as [g lo hi]. unfold sub_con. cbn [c_g c_lo c_hi skipn] in *. nred. rewrite firstn_all, <- H1, firstn_all, H1, <- H2, firstn_all. reflexivity. Qed.
Lemma length_concat_con (l : list (con Rnum)) : length (c_g (con_concat l)) = Nsum (map (fun c => length (c_g c)) l).
Proof. induction l as [|c l IH]; [reflexivity|]. cbn [con_concat fold_right con_app c_g map Nsum]. rewrite app_length. f_equal. exact IH. Qed.
Lemma balanced_firsts (l : list (con Rnum)) : (forall c, In c l -> balanced c) -> balanced (con_concat l).
Proof. exact (balanced_concat l). Qed.
(** element b of a stack, found by its position *)
Lemma sub_concat (l : list (con Rnum)) b s q : (forall c, In c l -> balanced c) -> (b < length l)%nat ->
  (s + q <= length (c_g (nth b l con_nil)))%nat ->
  sub_con (con_concat l) (Nsum (map (fun c => length (c_g c)) (firstn b l)) + s) q = sub_con (nth b l con_nil) s q.
Proof.
  revert b. induction l as [|c l IH]; intros b Hb Hl Hs; [cbn in Hl; lia|].
  change (con_concat (c :: l)) with (con_app c (con_concat l)). destruct b as [|b].
  - cbn [firstn map Nsum fold_right nth] in *. apply sub_inside; auto. apply Hb. now left.
  - cbn [firstn map Nsum fold_right nth] in *. rewrite <- Nat.add_assoc, sub_skip by (apply Hb; now left).
    apply IH; auto. intros c' Hc'. apply Hb. now right. cbn in Hl. lia.
Qed.
Lemma sub_sub_concat (l : list (con Rnum)) b : (forall c, In c l -> balanced c) -> (b < length l)%nat ->
  sub_con (con_concat l) (Nsum (map (fun c => length (c_g c)) (firstn b l))) (length (c_g (nth b l con_nil))) = nth b l con_nil.
Proof.
  intros Hb Hl. rewrite <- (Nat.add_0_r (Nsum _)), sub_concat by (auto; lia). apply sub_all. apply Hb. apply nth_In. exact Hl.
Qed.

Lemma bind_ok {A B} (m : res A) (f : A -> res B) b : bind m f = Ok b -> exists a, m = Ok a /\ f a = Ok b.
Proof. destruct m; cbn; [eauto|discriminate]. Qed.

Lemma Nsum_app l m : Nsum (l ++ m) = (Nsum l + Nsum m)%nat.
Proof. induction l as [|a l IH]; [reflexivity|]. cbn [app Nsum fold_right]. fold (Nsum (l ++ m)). rewrite IH. unfold Nsum. cbn. lia. Qed.
Lemma Nsum_firstn {A} (f : A -> nat) l n : (Nsum (map f (firstn n l)) <= Nsum (map f l))%nat.
Proof. rewrite <- (firstn_skipn n l) at 2. rewrite map_app, Nsum_app. lia. Qed.

Lemma ext_chain u l a b : below u a -> above l b -> ext_le u l -> a <= b.
Proof. destruct u, l; cbn; try contradiction; lra. Qed.

Section Main.
Variables (mp : mpo Rnum) (npath nterm : nat -> option nat) (z p : list R).
Hypothesis Hin : input_ok mp npath nterm z p.
Let o := mp_ocp mp.
Let orders := mp_orders mp.

Lemma phase_rows_sum ph : phase_rows mp npath nterm ph = Nsum (block_rows mp npath nterm ph).
Proof. unfold phase_rows, block_rows, Nsum. cbn [fold_right]. lia. Qed.

Lemma nlp_blocks_full : exists rs n, mapM (c_roots (mp_cf mp)) orders = Ok rs /\ nlp_at mp z p = Ok n /\
  (forall ph, (ph < o_nph o)%nat ->
    let B := g_block mp npath nterm n ph in let w := width mp p ph in let y := user_traj mp z ph in
    (sat (B 0%nat) <-> dynamics_ok mp rs w ph y) /\
    (sat (B 1%nat) <-> path_ok mp rs w ph y) /\
    (sat (B 2%nat) <-> slope_ok mp rs ph y) /\
    (sat (B 3%nat) <-> midu_ok mp rs ph y) /\
    (sat (B 4%nat) <-> ducont_ok mp rs ph y) /\
    (sat (B 5%nat) <-> terminal_ok mp ph y) /\
    exists ap d, compute_numerical_approximation mp = Ok ap /\ discretize_nodes mp ap (sw_of mp p ph) ph (unpack mp z ph) = Ok d /\
      con_dynamics mp ap d (unpack mp z ph) = Ok (B 0%nat) /\ con_midu mp ph (unpack mp z ph) = Ok (B 3%nat)) /\
  (sat (g_links mp npath nterm n) <-> links_ok mp (user_traj mp z)).
Proof.
  pose proof Hin as [Hmp Hok Hsc Hz Hp].
  destruct (nlp_at_ok mp Hmp npath nterm Hok Hsc z p Hz Hp) as (rs & n & Ers & En & _ & _ & _ & _ & BG & LG & _).
  exists rs, n. split; [exact Ers|]. split; [exact En|].
  pose proof En as Enlp. unfold nlp_at, create_nlp in En.
  apply bind_ok in En. destruct En as (ap & Eap & En).
  apply bind_ok in En. destruct En as (parts & Eparts & En).
  apply bind_ok in En. destruct En as (E & EE & En). injection En as <-. cbn [n_g] in *.
  destruct (mapM_inv _ _ _ Eparts) as [Hlp Hnth]. rewrite seq_length in Hlp.
  set (gs := map (fun '(_, g, _) => g) parts) in *.
  assert (Hgs : forall ph, (ph < o_nph o)%nat -> exists G J, nth ph gs con_nil = G /\
    discretize_phase mp ap (sw_of mp p ph) ph (unpack mp z ph) = Ok (G, J)).
  { intros ph Hph. destruct (Hnth ph ph) as ([[Z G] J] & E1 & E2).
    { rewrite (nth_error_nth' _ 0%nat) by (rewrite seq_length; exact Hph). rewrite seq_nth by exact Hph. reflexivity. }
    apply bind_ok in E2. destruct E2 as (v & Ev & E2). apply bind_ok in E2. destruct E2 as (Z' & _ & E2).
    apply bind_ok in E2. destruct E2 as ([G' J'] & E3 & E2). injection E2 as -> -> ->.
    exists G, J. split. { unfold gs. etransitivity; [apply (nth_error_nth _ _ _ (map_nth_error (fun '(_, g, _) => g) _ _ E1))|reflexivity]. }
    unfold at_ in Ev. rewrite (nth_error_nth' _ (unpack mp z 0)) in Ev by (rewrite map_length, seq_length; exact Hph).
    rewrite (map_nth (unpack mp z)), seq_nth in Ev by exact Hph. injection Ev as <-. exact E3. }
  assert (Hlg : length gs = o_nph o) by (unfold gs; rewrite map_length; exact Hlp).
  (* the blocks of one phase *)
  assert (HB : forall ph, (ph < o_nph o)%nat -> let y := user_traj mp z ph in let w := width mp p ph in
    exists F C DU M K T, nth ph gs con_nil = con_concat [F; C; DU; M; K; T] /\
      map (fun c => length (c_g c)) [F; C; DU; M; K; T] = block_rows mp npath nterm ph /\
      (forall c, In c [F; C; DU; M; K; T] -> balanced c) /\
      (sat F <-> dynamics_ok mp rs w ph y) /\ (sat C <-> path_ok mp rs w ph y) /\ (sat DU <-> slope_ok mp rs ph y) /\
      (sat M <-> midu_ok mp rs ph y) /\ (sat K <-> ducont_ok mp rs ph y) /\ (sat T <-> terminal_ok mp ph y) /\
      exists d, discretize_nodes mp ap (sw_of mp p ph) ph (unpack mp z ph) = Ok d /\
        con_dynamics mp ap d (unpack mp z ph) = Ok F /\ con_midu mp ph (unpack mp z ph) = Ok M).
  { intros ph Hph y w. destruct (Hgs ph Hph) as (G & J & EG & ED).
    destruct (phase_blocks mp npath nterm z p Hin ph Hph) as
      (rs' & ap' & d & F & C & T & m & DU & M & K & E1 & E2 & E3 & E4 & E5 & E6 & E7 & E8 & E9 &
       (b1 & l1 & s1) & (b2 & l2 & s2) & (b3 & l3 & s3 & _) & (b4 & l4 & s4) & (b5 & l5 & s5) & (b6 & l6 & s6)).
    assert (rs' = rs) by (nred; unfold orders in *; congruence). subst rs'.
    assert (ap' = ap) by (nred; congruence). subst ap'.
    exists F, C, DU, M, K, T. split; [|split; [|split]].
    - rewrite EG. unfold discretize_phase in ED. rewrite E3 in ED. cbn [bind] in ED. rewrite E4 in ED. cbn [bind] in ED.
      rewrite E5 in ED. cbn [bind] in ED. rewrite E6 in ED. cbn [bind] in ED. rewrite E7 in ED. cbn [bind] in ED.
      rewrite E8 in ED. cbn [bind] in ED. rewrite E9 in ED. cbn [bind] in ED. apply bind_ok in ED. destruct ED as (_ & _ & ED).
      injection ED as <- _. reflexivity.
    - cbn [map]. unfold block_rows. rewrite l1, l2, l3, l4, l5, l6. reflexivity.
    - intros c [<-|[<-|[<-|[<-|[<-|[<-|[]]]]]]]; assumption.
    - repeat (split; [assumption|]). exists d. auto. }
  assert (Hbal : forall c, In c gs -> balanced c).
  { intros c Hc. destruct (In_nth _ _ con_nil Hc) as (ph & Hph & <-). rewrite Hlg in Hph.
    destruct (HB ph Hph) as (F & C & DU & M & K & T & -> & _ & H & _). apply balanced_concat. exact H. }
  assert (Hrows : forall ph, (ph < o_nph o)%nat -> length (c_g (nth ph gs con_nil)) = Nsum (block_rows mp npath nterm ph)).
  { intros ph Hph. destruct (HB ph Hph) as (F & C & DU & M & K & T & -> & H & _). rewrite length_concat_con, H. reflexivity. }
  assert (Hstart : forall ph, (ph <= o_nph o)%nat ->
    Nsum (map (fun c => length (c_g c)) (firstn ph gs)) = Nsum (map (fun q => Nsum (block_rows mp npath nterm q)) (seq 0 ph))).
  { intros ph Hph. f_equal. apply (list_eq_nth _ _ 0%nat).
    - rewrite !map_length, firstn_length, seq_length. lia.
    - rewrite map_length, firstn_length. intros i Hi.
      rewrite (nth_map_in _ _ _ _ con_nil) by (rewrite firstn_length; lia).
      rewrite nth_map_seq by lia. rewrite nth_firstn_lt by lia. apply Hrows. lia. }
  split.
  - intros ph Hph. match goal with |- context [g_block mp npath nterm ?n0 ph] => set (B := g_block mp npath nterm n0 ph) end.
    set (w := width mp p ph). set (y := user_traj mp z ph).
    destruct (HB ph Hph) as (F & C & DU & M & K & T & EG & HL & Hb & S1 & S2 & S3 & S4 & S5 & S6 & d & X1 & X2 & X3).
    assert (Hblk : forall b, (b < 6)%nat -> B b = nth b [F; C; DU; M; K; T] con_nil).
    { intros b Hb6. unfold B, g_block. cbn [n_g]. rewrite <- HL.
      assert (El : nth b (map (fun c => length (c_g c)) [F; C; DU; M; K; T]) 0%nat = length (c_g (nth b [F; C; DU; M; K; T] con_nil))).
      { rewrite (nth_map_in _ _ _ _ con_nil) by exact Hb6. reflexivity. }
      rewrite El, firstn_map, <- Hstart by lia.
      assert (Hfit : (Nsum (map (fun c => length (c_g c)) (firstn b [F; C; DU; M; K; T])) + length (c_g (nth b [F; C; DU; M; K; T] con_nil))
        <= length (c_g (nth ph gs con_nil)))%nat).
      { rewrite EG, length_concat_con. destruct b as [|[|[|[|[|[|b]]]]]]; [cbn [firstn map Nsum fold_right nth]; lia..|lia]. }
      rewrite sub_inside; [|apply balanced_concat; exact Hbal|].
      - rewrite sub_concat by (auto; rewrite Hlg; exact Hph). rewrite EG. apply sub_sub_concat; [exact Hb|exact Hb6].
      - rewrite length_concat_con. pose proof (Hstart (S ph) ltac:(lia)) as HS.
        fold gs. pose proof (Nsum_firstn (fun c : con Rnum => length (c_g c)) gs (S ph)) as Hge.
        rewrite HS, seq_S, map_app, Nsum_app in Hge. rewrite Hstart by lia. cbn [map Nsum fold_right Nat.add] in Hge.
        pose proof (Hrows ph Hph) as HR. rewrite Hrows in Hfit by exact Hph. etransitivity; [|exact Hge]. lia. }
    rewrite !Hblk by lia. cbn [nth]. repeat (split; [assumption|]). exists ap, d. auto.
  - unfold g_links. cbn [n_g]. set (a := length (c_g (con_concat gs))).
    assert (Ea : Nsum (map (fun q => Nsum (block_rows mp npath nterm q)) (seq 0 (o_nph (mp_ocp mp)))) = a).
    { pose proof (Hstart (o_nph o) ltac:(lia)) as H. unfold a. rewrite length_concat_con. unfold o in H, Hlg. rewrite <- H, <- Hlg, firstn_all. reflexivity. }
    rewrite Ea. change (con_concat (map (fun '(_, g, _) => g) parts)) with (con_concat gs).
    rewrite <- (Nat.add_0_r a) at 1. unfold a at 1. rewrite sub_skip by (apply balanced_concat; exact Hbal).
    cbn [con_app c_g]. rewrite app_length. change (length (c_g (con_concat gs))) with a.
    replace (a + length (c_g E) - a)%nat with (length (c_g E)) by lia.
    change (balanced (con_app (con_concat gs) E)) in BG. destruct BG as [B1 B2]. cbn [con_app c_g c_lo c_hi] in B1, B2. rewrite !app_length in B1, B2.
    pose proof (balanced_concat gs Hbal) as [b1 b2]. rewrite sub_all by (split; nred; lia).
    unfold links_ok. destruct (Nat.ltb_spec 1 (o_nph (mp_ocp mp))) as [Hn|Hn].
    + assert (HE : exists E, con_events mp (map (unpack mp z) (seq 0 (o_nph (mp_ocp mp)))) = Ok E /\ balanced E /\
        length (c_g E) = (length (o_links o) * (o_nx o + o_nu o + 1))%nat /\
        (sat E <-> forall k i j, nth_error (o_links o) k = Some (i, j) -> link_ok mp (user_traj mp z) k i j)).
      { eapply con_events_ok; eauto. - rewrite map_length, seq_length. reflexivity.
        - intros i d Hi. rewrite nth_map_seq by exact Hi. eapply unpack_rep; eauto. }
      destruct HE as (E' & EE' & _ & _ & SE). assert (E' = E) by (nred; congruence). subst E'. rewrite SE. split; auto.
    + injection EE as <-. split; [intros _ H; lia|intros _; apply sat_nil].
Qed.

Lemma nlp_blocks : exists rs n, mapM (c_roots (mp_cf mp)) orders = Ok rs /\ nlp_at mp z p = Ok n /\
  (forall ph, (ph < o_nph o)%nat ->
    let B := g_block mp npath nterm n ph in let w := width mp p ph in let y := user_traj mp z ph in
    (sat (B 0%nat) <-> dynamics_ok mp rs w ph y) /\
    (sat (B 1%nat) <-> path_ok mp rs w ph y) /\
    (sat (B 2%nat) <-> slope_ok mp rs ph y) /\
    (sat (B 3%nat) <-> midu_ok mp rs ph y) /\
    (sat (B 4%nat) <-> ducont_ok mp rs ph y) /\
    (sat (B 5%nat) <-> terminal_ok mp ph y)) /\
  (sat (g_links mp npath nterm n) <-> links_ok mp (user_traj mp z)).
Proof.
  destruct nlp_blocks_full as (rs & n & E1 & E2 & H & HL). exists rs, n. split; [exact E1|]. split; [exact E2|]. split; [|exact HL].
  intros ph Hph B w y. destruct (H ph Hph) as (H1 & H2 & H3 & H4 & H5 & H6 & _). auto 10.
Qed.

Lemma nlp_lengths : exists n z0, nlp_at mp z p = Ok n /\ initialize_solution mp = Ok z0 /\
  balanced (n_x n) /\ balanced (n_g n) /\
  length (c_g (n_x n)) = (o_nph o * nvars mp)%nat /\ length z0 = length (c_g (n_x n)) /\
  length (c_g (n_g n)) = (Nsum (map (fun ph => Nsum (block_rows mp npath nterm ph)) (seq 0 (o_nph o))) + link_rows o)%nat.
Proof.
  pose proof Hin as [Hmp Hok Hsc Hz Hp].
  destruct (nlp_at_ok mp Hmp npath nterm Hok Hsc z p Hz Hp) as (rs & n & Ers & En & _ & _ & Ez & B1 & B2 & LG & _).
  destruct (initial_guess mp Hmp (ok_shapes _ _ _ Hok)) as (z0 & Ez0 & L0 & _).
  exists n, z0. split; [exact En|]. split; [exact Ez0|]. split; [exact B1|]. split; [exact B2|].
  rewrite Ez. split; [exact Hz|]. split; [etransitivity; [exact L0|]; symmetry; exact Hz|].
  etransitivity; [exact LG|]. unfold o. f_equal. unfold Nsum at 1. f_equal. apply map_ext. exact phase_rows_sum.
Qed.

Lemma counter_iff : optimization_vars_per_phase mp = nvars mp <-> o_nph o = 1%nat \/ o_na o = 0%nat.
Proof.
  pose proof Hin as [Hmp Hok Hsc Hz Hp]. pose proof (sh_nph _ (ok_shapes _ _ _ Hok)) as Hn. fold o in Hn.
  unfold optimization_vars_per_phase, nvars. rewrite (npoints_total mp). fold o. set (n := total_nodes (mp_orders mp)).
  split; [intros H|intros [E|E]; rewrite E; nia].
  destruct (Nat.eq_dec (o_na o) 0) as [E|E]; [auto|left]. nia.
Qed.

Lemma layout_onto : exists vs n, (forall v, In v vs -> vars_ok mp v) /\ length vs = o_nph o /\
  create_nlp mp vs p = Ok n /\ c_g (n_x n) = z.
Proof.
  pose proof Hin as [Hmp Hok Hsc Hz Hp].
  destruct (nlp_at_ok mp Hmp npath nterm Hok Hsc z p Hz Hp) as (rs & n & Ers & En & _ & _ & Ez & _).
  exists (map (unpack mp z) (seq 0 (o_nph o))), n. split; [|split; [rewrite map_length, seq_length; reflexivity|split; auto]].
  intros v Hv. apply in_map_iff in Hv. destruct Hv as (ph & <- & Hph). apply in_seq in Hph.
  unfold unpack. rewrite npoints_total. unfold vars_ok. cbn [v_X v_U v_A nr nc]. repeat (split; [reflexivity|]).
  rewrite firstn_length, !skipn_length. nred. rewrite zlen_nvars. fold o. unfold o in *.
  assert (ph * nvars mp + nvars mp <= length z)%nat by (nred; rewrite Hz; nia). unfold nvars in *. nred. lia.
Qed.

Lemma bounds_iff : exists n, nlp_at mp z p = Ok n /\ c_g (n_x n) = z /\
  (sat (n_x n) <-> forall ph, (ph < o_nph o)%nat -> bounds_ok mp ph (user_traj mp z ph)).
Proof.
  pose proof Hin as [Hmp Hok Hsc Hz Hp].
  destruct (nlp_at_ok mp Hmp npath nterm Hok Hsc z p Hz Hp) as (rs & n & Ers & En & _ & _ & Ez & _ & _ & _ & Hx & _).
  exists n. auto.
Qed.

Lemma dynamics_blocks : exists rs n, mapM (c_roots (mp_cf mp)) orders = Ok rs /\ nlp_at mp z p = Ok n /\
  forall ph, (ph < o_nph o)%nat -> nondegenerate mp (width mp p ph) (user_traj mp z ph) ->
    (sat (g_block mp npath nterm n ph 0) <-> dynamics_time_ok mp rs (width mp p ph) ph (user_traj mp z ph)).
Proof.
  destruct nlp_blocks as (rs & n & Ers & En & HB & _). exists rs, n. split; [exact Ers|]. split; [exact En|].
  intros ph Hph Hnd. rewrite (proj1 (HB ph Hph)).
  destruct (setup mp npath nterm z p Hin) as (rs' & ap & Ers' & _ & _ & Hlrs & Hgood & _).
  assert (rs' = rs) by (nred; unfold orders in *; congruence). subst rs'.
  apply dynamics_time_iff; auto. apply (co_taus _ (mo_cfg _ (in_mpo _ _ _ _ _ Hin))).
Qed.

(** the linking, path, terminal and optional blocks *)
Lemma path_terminal_blocks : exists rs n, mapM (c_roots (mp_cf mp)) orders = Ok rs /\ nlp_at mp z p = Ok n /\
  forall ph, (ph < o_nph o)%nat -> let y := user_traj mp z ph in
    (sat (g_block mp npath nterm n ph 1) <->
       forall i k j c, owned orders i k j ->
         In c (path_val o ph y i (node_time (mp_cf mp) (width mp p ph) y k (nth j (nth k rs []) 0))) -> c <= 0) /\
    (sat (g_block mp npath nterm n ph 5) <-> forall c, In c (term_val o ph y (total_nodes orders - 1)) -> c = 0) /\
    (npath ph = None -> c_g (g_block mp npath nterm n ph 1) = []) /\
    (nterm ph = None -> c_g (g_block mp npath nterm n ph 5) = []).
Proof.
  destruct nlp_blocks as (rs & n & Ers & En & HB & _). exists rs, n. split; [exact Ers|]. split; [exact En|].
  intros ph Hph y. destruct (HB ph Hph) as (_ & H1 & _ & _ & _ & H5). rewrite H1, H5. clear HB H1 H5.
  pose proof (co_taus _ (mo_cfg _ (in_mpo _ _ _ _ _ Hin))) as Ht.
  split; [|split; [reflexivity|split]].
  - unfold path_ok. split; intros H i k j c Ho Hc; apply (H i k j c Ho); [rewrite <- node_time_seg|rewrite node_time_seg]; auto.
  - intros E. unfold g_block, sub_con. cbn [c_g nth block_rows]. rewrite E. reflexivity.
  - intros E. unfold g_block, sub_con. cbn [c_g nth block_rows]. rewrite E. reflexivity.
Qed.

Lemma link_block : exists n, nlp_at mp z p = Ok n /\
  ((1 < o_nph o)%nat -> (sat (g_links mp npath nterm n) <->
     forall k i j, nth_error (o_links o) k = Some (i, j) -> link_ok mp (user_traj mp z) k i j)).
Proof.
  destruct nlp_blocks as (rs & n & Ers & En & _ & HL). exists n. split; [exact En|]. intros Hn. rewrite HL.
  unfold links_ok. fold o. split; auto.
Qed.

Lemma midu_block : exists rs n, mapM (c_roots (mp_cf mp)) orders = Ok rs /\ nlp_at mp z p = Ok n /\
  forall ph, (ph < o_nph o)%nat -> (sat (g_block mp npath nterm n ph 3) <-> midu_ok mp rs ph (user_traj mp z ph)).
Proof.
  destruct nlp_blocks as (rs & n & Ers & En & HB & _). exists rs, n. split; [exact Ers|]. split; [exact En|].
  intros ph Hph. apply (HB ph Hph).
Qed.
Lemma slope_block : exists rs n, mapM (c_roots (mp_cf mp)) orders = Ok rs /\ nlp_at mp z p = Ok n /\
  forall ph, (ph < o_nph o)%nat -> let y := user_traj mp z ph in let w := width mp p ph in
    nondegenerate mp w y -> nth ph (o_diff_u o) false = true ->
    (sat (g_block mp npath nterm n ph 2) <->
     forall i k j c q, owned orders i k j -> (c < o_nu o)%nat -> time_interp mp rs w y k (fun i => y_u y i c) q ->
       within (nth ph (o_lbdu o) NaN) (nth ph (o_ubdu o) NaN)
         (nth c (o_scale_u o) 0 * (seg_h (mp_cf mp) w y k * Derive (peval q) (node_time (mp_cf mp) w y k (nth j (nth k rs []) 0))))).
Proof.
  destruct nlp_blocks as (rs & n & Ers & En & HB & _). exists rs, n. split; [exact Ers|]. split; [exact En|].
  intros ph Hph y w Hnd Hd. destruct (HB ph Hph) as (_ & _ & H2 & _). rewrite H2.
  destruct (setup mp npath nterm z p Hin) as (rs' & ap & Ers' & _ & _ & Hlrs & Hgood & _).
  assert (rs' = rs) by (nred; unfold orders in *; congruence). subst rs'.
  apply slope_time_iff; auto. apply (co_taus _ (mo_cfg _ (in_mpo _ _ _ _ _ Hin))).
Qed.
Lemma ducont_block : exists rs n, mapM (c_roots (mp_cf mp)) orders = Ok rs /\ nlp_at mp z p = Ok n /\
  forall ph, (ph < o_nph o)%nat -> let y := user_traj mp z ph in let w := width mp p ph in
    nondegenerate mp w y -> nth ph (o_ducont o) false = true ->
    (forall k, (S k < length orders)%nat -> w k = w (S k)) ->
    (sat (g_block mp npath nterm n ph 4) <-> ducont_time_ok mp rs w y).
Proof.
  destruct nlp_blocks as (rs & n & Ers & En & HB & _). exists rs, n. split; [exact Ers|]. split; [exact En|].
  intros ph Hph y w Hnd Hd Hw. destruct (HB ph Hph) as (_ & _ & _ & _ & H4 & _). rewrite H4.
  destruct (setup mp npath nterm z p Hin) as (rs' & ap & Ers' & _ & _ & Hlrs & Hgood & _).
  assert (rs' = rs) by (nred; unfold orders in *; congruence). subst rs'.
  apply ducont_time_iff; auto. apply (co_taus _ (mo_cfg _ (in_mpo _ _ _ _ _ Hin))).
Qed.

(** feasible points respect time order in phases whose time bounds force it *)
Lemma forward_time n ph : nlp_at mp z p = Ok n -> feasible n -> (ph < o_nph o)%nat ->
  ext_le (bnd ph (o_ubt0 o) 0) (bnd ph (o_lbtf o) 0) -> y_t0 (user_traj mp z ph) <= y_tf (user_traj mp z ph).
Proof.
  intros En [Hx _] Hph Hle. destruct bounds_iff as (n' & En' & _ & H). assert (n' = n) by (nred; congruence). subst n'.
  destruct (proj1 H Hx ph Hph) as (_ & _ & [_ A] & [B _] & _). fold o in A, B.
  exact (ext_chain _ _ _ _ A B Hle).
Qed.
End Main.

(** ** problems that validate accepts but create_nlp cannot handle *)
Lemma no_diff_u (mp : mpo Rnum) z p n : o_diff_u (mp_ocp mp) = [] -> (1 <= o_nph (mp_ocp mp))%nat -> nlp_at mp z p <> Ok n.
Proof.
  intros Hd Hn E. unfold nlp_at, create_nlp in E. apply bind_ok in E. destruct E as (ap & _ & E).
  apply bind_ok in E. destruct E as (parts & E & _). destruct (mapM_inv _ _ _ E) as [_ H].
  destruct (H 0%nat 0%nat) as (b & _ & Eb). { destruct (o_nph (mp_ocp mp)); [lia|reflexivity]. }
  apply bind_ok in Eb. destruct Eb as (v & _ & Eb). apply bind_ok in Eb. destruct Eb as (zz & _ & Eb).
  apply bind_ok in Eb. destruct Eb as ([g j] & Eb & _). unfold discretize_phase in Eb.
  apply bind_ok in Eb. destruct Eb as (d & _ & Eb). apply bind_ok in Eb. destruct Eb as (F & _ & Eb).
  apply bind_ok in Eb. destruct Eb as (C & _ & Eb). apply bind_ok in Eb. destruct Eb as ([T m] & _ & Eb).
  apply bind_ok in Eb. destruct Eb as (DU & Eb & _). unfold con_slope in Eb. rewrite Hd in Eb. discriminate.
Qed.
