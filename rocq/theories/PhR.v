(** Refinement of widths and orders (proofs). *)
From Coq Require Import String.
From Coq Require Import Reals.
From Coq Require Import List Lia Lra Bool Arith.
From Verif Require Import Num PyList Mat Colloc Ocp Transcribe Solve Hadapt Resid Ph Spec SpecOcp SpecHadapt SpecPh
  NumR ListR HadaptR AreaR PostMain.
Import ListNotations.
Open Scope R_scope.
Open Scope list_scope.

(** ** auxiliary *)
Lemma skipn_cons {A} (l : list A) i d : (i < length l)%nat -> skipn i l = nth i l d :: skipn (S i) l.
Proof. revert l. induction i as [|i IH]; intros [|a l] H; cbn in *; try lia; [reflexivity|]. apply IH. lia. Qed.
Lemma forallb_false_ex {A} (f : A -> bool) l : forallb f l = false -> exists x, In x l /\ f x = false.
Proof.
  induction l as [|a l IH]; [discriminate|]. cbn [forallb]. destruct (f a) eqn:E; [|intros _; exists a; cbn; auto].
  intros H. destruct (IH H) as (x & Hx & Hf). exists x. cbn; auto.
Qed.

(** ** limits *)
Lemma min_nats_ok l m : min_nats l = Ok m -> In m l /\ forall p, In p l -> (m <= p)%nat.
Proof.
  destruct l as [|a l]; [discriminate|]. cbn [min_nats]. intros E. injection E as <-. revert a.
  induction l as [|b l IH]; intros a; cbn [fold_left]; [split; [cbn; auto|intros p [<-|[]]; lia]|].
  destruct (IH (Nat.min a b)) as [H1 H2]. split.
  - destruct H1 as [H1|H1]; [|cbn; auto]. rewrite <- H1. cbn. destruct (Nat.min_dec a b) as [E|E]; nred; rewrite E; auto.
  - intros p [<-|[<-|Hp]]; [specialize (H2 _ (or_introl eq_refl)); lia..|apply H2; cbn; auto].
Qed.
Lemma max_nats_ok l m : max_nats l = Ok m -> In m l /\ forall p, In p l -> (p <= m)%nat.
Proof.
  destruct l as [|a l]; [discriminate|]. cbn [max_nats]. intros E. injection E as <-. revert a.
  induction l as [|b l IH]; intros a; cbn [fold_left]; [split; [cbn; auto|intros p [<-|[]]; lia]|].
  destruct (IH (Nat.max a b)) as [H1 H2]. split.
  - destruct H1 as [H1|H1]; [|cbn; auto]. rewrite <- H1. cbn. destruct (Nat.max_dec a b) as [E|E]; nred; rewrite E; auto.
  - intros p [<-|[<-|Hp]]; [specialize (H2 _ (or_introl eq_refl)); lia..|apply H2; cbn; auto].
Qed.
Theorem new_ph_ok (o : ocp Rnum) n po cf g tol pmin pmax smin smax ng thr :
  length (orders_of n po) = n -> (1 <= n)%nat -> exists mp pc, new_ph o n po cf g tol pmin pmax smin smax ng thr = Ok (mp, pc) /\
  mp = Mpo o n (orders_of n po) cf /\ within_limits (ph_min pc) (ph_max pc) (mp_orders mp) /\
  (ph_min pc <= pmin)%nat /\ (pmax <= ph_max pc)%nat /\ (ph_min_seg pc <= n <= ph_max_seg pc)%nat /\
  (ph_min pc = pmin \/ In (ph_min pc) (mp_orders mp)) /\ (ph_max pc = pmax \/ In (ph_max pc) (mp_orders mp)) /\
  ph_tol pc = tol /\ ph_smooth pc = thr /\ ph_rc pc = Rcfg ng (repeat g (o_nph o)).
Proof.
  intros Hl Hn. unfold new_ph, new_mpo. rewrite (proj2 (Nat.eqb_eq _ _) Hl). cbn [assert_ bind mp_orders].
  assert (Hne : orders_of n po <> []) by (intros E; rewrite E in Hl; cbn in Hl; lia).
  destruct (min_nats (orders_of n po)) as [lo|] eqn:E1; [|destruct (orders_of n po); [contradiction|discriminate E1]].
  destruct (max_nats (orders_of n po)) as [hi|] eqn:E2; [|destruct (orders_of n po); [contradiction|discriminate E2]].
  destruct (min_nats_ok _ _ E1) as [I1 B1]. destruct (max_nats_ok _ _ E2) as [I2 B2].
  cbn [bind]. eexists _, _. split; [reflexivity|]. split; [reflexivity|]. cbn [ph_min ph_max mp_orders ph_min_seg ph_max_seg ph_tol ph_smooth ph_rc].
  destruct (Nat.ltb_spec lo pmin), (Nat.ltb_spec pmax hi), (Nat.ltb_spec n smin), (Nat.ltb_spec smax n);
    (split; [intros p Hp; specialize (B1 p Hp); specialize (B2 p Hp); lia|]); repeat split; auto; lia.
Qed.
Theorem new_ph_raises (o : ocp Rnum) n po cf g tol pmin pmax smin smax ng thr :
  length (orders_of n po) <> n \/ n = 0%nat -> exists e, new_ph o n po cf g tol pmin pmax smin smax ng thr = Raise e.
Proof.
  intros H. unfold new_ph, new_mpo. destruct (Nat.eqb_spec (length (orders_of n po)) n) as [E|E]; [|eexists; reflexivity].
  destruct H as [H|H]; [contradiction|]. rewrite H in E. cbn [assert_ bind mp_orders]. rewrite H. destruct (orders_of 0 po); [|discriminate E]. eexists. reflexivity.
Qed.
Theorem limited_ok (pc : phcfg (N := Rnum)) orders : (ph_min pc <= ph_max pc)%nat ->
  within_limits (ph_min pc) (ph_max pc) (limit_poly_orders pc orders) /\ length (limit_poly_orders pc orders) = length orders /\
  forall i p, nth_error orders i = Some p -> nth_error (limit_poly_orders pc orders) i =
    Some (if p <? ph_min pc then ph_min pc else if ph_max pc <? p then ph_max pc else p)%nat.
Proof.
  intros H. unfold limit_poly_orders. split; [|split; [apply map_length|]].
  - intros p Hp. apply in_map_iff in Hp. destruct Hp as (q & <- & _). lia.
  - intros i p E. rewrite nth_error_map, E. cbn [option_map]. f_equal. destruct (Nat.ltb_spec p (ph_min pc)), (Nat.ltb_spec (ph_max pc) p); lia.
Qed.

(** ** the new mesh *)
Lemma split_from orders (sw : list R) marks : forall i, (i + length marks <= length orders)%nat -> (i + length marks <= length sw)%nat ->
  exists parts, mapM (fun '(i, m) => w <- at_ sw i ;; p <- at_ orders i ;; Ok (if m : bool then ([p; p], [@ndiv Rnum w n2; @ndiv Rnum w n2]) else ([p], [w])))
    (combine (seq i (length marks)) marks) = Ok parts /\
  concat (map fst parts) = map fst (refined (combine (skipn i orders) (skipn i sw)) marks) /\
  concat (map snd parts) = map snd (refined (combine (skipn i orders) (skipn i sw)) marks).
Proof.
  induction marks as [|m marks IH]; intros i H1 H2.
  - exists []. split; [reflexivity|]. destruct (combine _ _); auto.
  - cbn [length] in H1, H2. destruct (IH (S i)) as (parts & E & F1 & F2); [lia..|].
    cbn [length seq combine mapM]. rewrite (at_ok sw i 0) by lia. rewrite (at_ok orders i 0%nat) by lia. cbn [bind]. rewrite E. cbn [bind].
    eexists. split; [reflexivity|]. cbn [map concat].
    rewrite (skipn_cons orders i 0%nat) by lia. rewrite (skipn_cons sw i 0) by lia. cbn [combine refined]. rewrite !map_app, <- F1, <- F2.
    assert (E2 : @n2 Rnum = 2) by (unfold n2; nred; lra).
    destruct m; cbn [halves fst snd map app]; nred; rewrite ?E2; auto.
Qed.
Theorem split_ok orders (sw : list R) marks : length orders = length marks -> (length marks <= length sw)%nat ->
  exists os ws, split_mesh (N := Rnum) orders sw marks = Ok (os, ws) /\
    combine os ws = refined (combine orders sw) marks /\ length os = length ws /\ total ws = total (firstn (length marks) sw) /\
    (forall p, In p os <-> In p orders) /\ ((forall w, In w sw -> 0 < w) -> forall w, In w ws -> 0 < w).
Proof.
  intros H1 H2. destruct (split_from orders sw marks 0 ltac:(lia) ltac:(lia)) as (parts & E & F1 & F2). cbn [skipn] in F1, F2.
  unfold split_mesh, enumerate. match goal with |- context [mapM ?f ?l] => replace (mapM f l) with (Ok parts) by (symmetry; exact E) end. cbn [bind]. eexists _, _. split; [reflexivity|]. rewrite F1, F2. clear E F1 F2.
  assert (G : forall l : list (nat * R), combine (map fst l) (map snd l) = l) by (induction l as [|[a b] l IH]; [reflexivity|cbn; now rewrite IH]).
  split; [apply G|]. split; [now rewrite !map_length|]. clear G.
  revert sw marks H1 H2. induction orders as [|p orders IH]; intros sw marks H1 H2.
  { destruct marks; [|discriminate]. cbn. split; [reflexivity|]. split; [tauto|intros _ w []]. }
  destruct marks as [|m marks]; [discriminate|]. destruct sw as [|w sw]; [cbn in H2; lia|]. cbn in H1, H2.
  destruct (IH sw marks ltac:(lia) ltac:(lia)) as (T & I & P). cbn [combine refined firstn length]. rewrite !map_app. split; [|split].
  - change (total (w :: ?l)) with (w + total l). rewrite <- T. destruct m; unfold total; cbn; lra.
  - intros q. rewrite in_app_iff. rewrite I. destruct m; cbn; intuition.
  - intros Hw v Hv. apply in_app_or in Hv. destruct Hv as [Hv|Hv]; [|apply P; auto; intros; apply Hw; now right].
    specialize (Hw w (or_introl eq_refl)). destruct m; cbn in Hv; intuition (subst; lra).
Qed.
Theorem split_partition orders (sw : list R) marks : length orders = length marks -> partition (length marks) sw ->
  exists os ws, split_mesh (N := Rnum) orders sw marks = Ok (os, ws) /\ partition (length os) ws /\
    combine os ws = refined (combine orders sw) marks /\ forall p, In p os <-> In p orders.
Proof.
  intros H1 (L & P & T). destruct (split_ok orders sw marks H1 ltac:(lia)) as (os & ws & E & C & Lw & Tw & I & Pw).
  exists os, ws. split; [exact E|]. split; [|auto]. split; [symmetry; exact Lw|]. split; [auto|]. rewrite Tw, <- L, firstn_all. exact T.
Qed.

(** ** passes *)
Lemma wbind_inv {A B} (m : W (N := Rnum) A) (f : A -> W (N := Rnum) B) h h' r : wbind m f h = (h', r) ->
  exists h1, (exists e, m h = (h1, Raise e) /\ r = Raise e /\ h' = h1) \/ (exists a, m h = (h1, Ok a) /\ f a h1 = (h', r)).
Proof. unfold wbind. destruct (m h) as [h1 [a|e]]; intros E; exists h1; [right; exists a; auto|left; exists e; inversion E; auto]. Qed.
Lemma wbind_lift {A B} (m : res A) (f : A -> W (N := Rnum) B) h h' r : wbind (wlift m) f h = (h', r) ->
  (exists e, m = Raise e /\ r = Raise e /\ h' = h) \/ (exists a, m = Ok a /\ f a h = (h', r)).
Proof. unfold wbind, wlift. destruct m as [a|e]; intros E; [right; exists a; auto|left; exists e; inversion E; auto]. Qed.

Section Loop.
Variable pc : phcfg (N := Rnum).
Variable run : list (solved (N := Rnum)) -> mpo Rnum -> list R -> res (list R).
Variable user_sw : option (list R).
Variables (o : ocp Rnum) (cf : ccfg Rnum).
Hypothesis Hlim : (ph_min pc <= ph_max pc)%nat.
Local Notation ok := (run_ok o cf (ph_min pc) (ph_max pc) user_sw).
Definition mesh_ok (mp : mpo Rnum) : Prop := mp_ocp mp = o /\ mp_cf mp = cf /\ length (mp_orders mp) = mp_nseg mp /\
  within_limits (ph_min pc) (ph_max pc) (mp_orders mp).

Lemma solve_run mp h h' r : mesh_ok mp -> ph_solve run user_sw mp h = (h', r) -> exists w, ok (mp, w) /\ h' = h ++ [(mp, w)] /\
  match r with Ok (w', z) => w' = w /\ run h mp w = Ok z | Raise e => run h mp w = Raise e end.
Proof.
  intros (H1 & H2 & H3 & H4). unfold ph_solve. rewrite (proj2 (Nat.eqb_eq _ _) H3). cbn [assert_]. unfold wbind, wlift. intros E. inversion E; subst h' r.
  set (w := match user_sw with Some l => l | None => _ end). exists w. split.
  - unfold run_ok. repeat split; auto; try apply H4; auto. unfold w. destruct user_sw; [reflexivity|]. unfold equal_widths.
    rewrite H1. f_equal. nred. rewrite nofnat_R. reflexivity.
  - split; [reflexivity|]. nred. destruct (run h mp w); cbn [bind]; auto.
Qed.
Lemma states_len rc (mp : mpo Rnum) sw z rel r : states_residuals rc mp sw z None None rel = Ok r ->
  map fst r = seq 0 (o_nph (mp_ocp mp)) /\ forall ph segs, In (ph, segs) r -> length segs = mp_nseg mp.
Proof.
  unfold states_residuals_by. intros E. split.
  - revert r E. induction (seq 0 (o_nph (mp_ocp mp))) as [|a l IH]; intros r E; cbn [mapM] in E; [inversion E; reflexivity|].
    destruct (states_residuals_phase rc mp sw z None rel a) as [s|]; [|discriminate E]. cbn [bind] in E.
    match type of E with bind ?m _ = _ => destruct m as [r'|] eqn:Er; [|discriminate E] end. cbn [bind] in E. inversion E; subst r. cbn. f_equal. apply IH. reflexivity.
  - intros ph segs Hin. apply In_nth_error in Hin. destruct Hin as (k & Hk).
    assert (Hlt : (k < length (seq 0 (o_nph (mp_ocp mp))))%nat).
    { rewrite <- (mapM_length _ _ _ E). apply nth_error_Some. rewrite Hk. discriminate. }
    pose proof (mapM_nth _ _ _ k 0%nat (ph, segs) E Hlt) as Ek. rewrite (nth_error_nth _ _ _ Hk) in Ek.
    destruct (states_residuals_phase rc mp sw z None rel _) as [s|] eqn:Es; [|discriminate Ek]. cbn [bind] in Ek. inversion Ek; subst s. clear Ek.
    unfold states_residuals_phase_by in Es. match type of Es with bind ?m _ = _ => destruct m as [tg|]; [|discriminate Es] end. cbn [bind] in Es.
    destruct (integrate_phase _ _ _ _ _ _) as [sg|] eqn:Ei; [|discriminate Es]. cbn [bind] in Es.
    assert (Ls : length sg = mp_nseg mp).
    { unfold integrate_phase_by in Ei. destruct (trajectories _ _ _ _) as [tr|]; [|discriminate Ei]. cbn [bind] in Ei.
      match type of Ei with bind ?m _ = _ => destruct m as [nd|]; [|discriminate Ei] end. cbn [bind] in Ei.
      match type of Ei with bind ?m _ = _ => destruct m as [it|]; [|discriminate Ei] end. cbn [bind] in Ei.
      pose proof (mapM_length _ _ _ Ei) as L. rewrite seq_length in L. exact L. }
    destruct rel; inversion Es; subst; [rewrite map_length|]; exact Ls.
Qed.
Lemma raise_len (orders : list nat) sts : (forall st, In st sts -> length st = length orders) -> length (raise_orders orders sts) = length orders.
Proof.
  intros H. unfold raise_orders. assert (G : forall acc, length acc = length orders -> length (fold_left (fun acc st => if any st then map (fun '(p, b) => (p + 3 * Nat.b2n b)%nat) (combine orders st) else acc) sts acc) = length orders).
  { induction sts as [|st sts IH]; intros acc Ha; [exact Ha|]. cbn [fold_left]. apply IH; [intros; apply H; now right|].
    destruct (any st); [|exact Ha]. rewrite map_length, combine_length, (H st (or_introl eq_refl)). apply Nat.min_id. }
  apply G. reflexivity.
Qed.

(** residuals against the tolerance *)
Lemma seg_residual_ok nx s v : seg_residual (N := Rnum) nx s = Ok v -> exists s', s = Some s' /\
  (forall row j, In row (ss_r s') -> (j < nx)%nat -> Rabs (nth j row 0) <= v) /\ exists row j, In row (ss_r s') /\ (j < nx)%nat /\ v = Rabs (nth j row 0).
Proof.
  destruct s as [s'|]; [|discriminate]. cbn [seg_residual]. intros E. exists s'. split; [reflexivity|].
  destruct (mapM _ _) as [cols|] eqn:Ec; [|discriminate E]. cbn [bind] in E.
  assert (Hcol : forall j, (j < nx)%nat -> max_ (N := Rnum) (map (fun row => nabs (nth j row n0)) (ss_r s')) = Ok (nth j cols 0)).
  { intros j Hj. pose proof (mapM_nth _ _ _ j 0%nat 0 Ec ltac:(rewrite seq_length; exact Hj)) as Ej. rewrite seq_nth in Ej by exact Hj. exact Ej. }
  pose proof (mapM_length _ _ _ Ec) as Lc. rewrite seq_length in Lc. nred.
  destruct (max_spec cols) as (v' & Ev & M1 & M2); [intros ->; discriminate E|].
  assert (v' = v) by (nred; congruence). subst v'. split.
  - intros row j Hr Hj. specialize (Hcol j Hj). destruct (max_spec (map (fun row => @nabs Rnum (nth j row 0)) (ss_r s'))) as (c & Ecj & C1 & _).
    { intros C. destruct (ss_r s'); [destruct Hr|discriminate C]. }
    nred. rewrite Ecj in Hcol. injection Hcol as Hcj. apply Rle_trans with c.
    + apply C1. apply in_map_iff. exists row. split; [apply nabs_R|exact Hr].
    + rewrite Hcj. apply M1, nth_In. nred. lia.
  - destruct (In_nth _ _ 0 M2) as (j & Hj & Ej). assert (Hjx : (j < nx)%nat) by (nred; lia). specialize (Hcol j Hjx). nred.
    destruct (max_spec (map (fun row => @nabs Rnum (nth j row 0)) (ss_r s'))) as (c & Ecj & _ & C2); [intros C; assert (X : max_ (N := Rnum) (@nil R) = Ok (nth j cols 0)) by (etransitivity; [apply f_equal; symmetry; exact C|exact Hcol]); discriminate X|].
    nred. rewrite Ecj in Hcol. injection Hcol as Hcj. apply in_map_iff in C2. destruct C2 as (row & Er & Hr). exists row, j.
    split; [exact Hr|]. split; [exact Hjx|]. rewrite <- Ej, <- Hcj, <- Er. apply nabs_R.
Qed.
Lemma status_any nx segs ms : mapM (seg_residual (N := Rnum) nx) segs = Ok ms -> (any (status pc ms) = false <-> phase_met nx (ph_tol pc) segs).
Proof.
  intros E. split.
  - intros Ha e Hin. apply In_nth_error in Hin. destruct Hin as (k & Hk). assert (Hlt : (k < length segs)%nat) by (apply nth_error_Some; rewrite Hk; discriminate).
    pose proof (mapM_nth _ _ _ k None 0 E Hlt) as Ek. rewrite (nth_error_nth _ _ _ Hk) in Ek. destruct (seg_residual_ok _ _ _ Ek) as (s & -> & B & _).
    exists s. split; [reflexivity|]. intros row j Hr Hj. apply Rle_trans with (1 := B row j Hr Hj). apply Rnot_lt_le. intros C.
    assert (any (status pc ms) = true); [|congruence]. unfold any. apply existsb_exists. exists true. split; [|reflexivity]. unfold status. apply in_map_iff.
    exists (nth k ms 0). split; [unfold Rnum; cbn [nltb]; unfold Rltb; destruct (Rlt_dec _ _); [reflexivity|contradiction]|]. apply nth_In. rewrite (mapM_length _ _ _ E). exact Hlt.
  - intros H. destruct (any (status pc ms)) eqn:Ea; [exfalso|reflexivity]. unfold any in Ea. apply existsb_exists in Ea. destruct Ea as (b & Hb & ->).
    unfold status in Hb. apply in_map_iff in Hb. destruct Hb as (v & Hv & Hin). destruct (In_nth _ _ 0 Hin) as (k & Hk & Ek).
    assert (Hk' : (k < length segs)%nat) by (pose proof (mapM_length _ _ _ E); nred; lia). clear Hk. rename Hk' into Hk. pose proof (mapM_nth _ _ _ k None 0 E Hk) as Es. destruct (seg_residual_ok _ _ _ Es) as (s & Esg & _ & row & j & Hr & Hj & Ev).
    destruct (H (nth k segs None) (nth_In _ _ Hk)) as (s' & Es' & Hs'). assert (s' = s) by congruence. subst s'. specialize (Hs' row j Hr Hj).
    unfold Rnum in Hv; cbn [nltb] in Hv. unfold Rltb in Hv. destruct (Rlt_dec _ _) as [Hlt|]; [|discriminate Hv]. nred. rewrite <- Ev in Hs'. apply (Rle_not_lt _ _ Hs'). rewrite Ek. exact Hlt.
Qed.
Lemma phases_any nx r ms : max_residuals (N := Rnum) nx r = Ok ms -> length ms = length r /\
  (forall k, (k < length r)%nat -> mapM (seg_residual (N := Rnum) nx) (snd (nth k r (0%nat, []))) = Ok (nth k ms [])) /\
  (forallb any (map (status pc) ms) = false <-> exists ph segs, In (ph, segs) r /\ phase_met nx (ph_tol pc) segs).
Proof.
  unfold max_residuals. intros E. pose proof (mapM_length _ _ _ E) as L. split; [exact L|].
  assert (H : forall k, (k < length r)%nat -> mapM (seg_residual (N := Rnum) nx) (snd (nth k r (0%nat, []))) = Ok (nth k ms [])).
  { intros k Hk. pose proof (mapM_nth _ _ _ k (0%nat, []) [] E Hk) as Ek. destruct (nth k r (0%nat, [])) as [ph segs]. exact Ek. }
  split; [exact H|]. split.
  - intros Hf. apply forallb_false_ex in Hf. destruct Hf as (st & Hin & Hst). apply in_map_iff in Hin. destruct Hin as (m & <- & Hm).
    destruct (In_nth _ _ [] Hm) as (k & Hk & <-). rewrite L in Hk. destruct (nth k r (0%nat, [])) as [ph segs] eqn:Er. exists ph, segs.
    split; [rewrite <- Er; apply nth_In; exact Hk|]. specialize (H k Hk). rewrite Er in H. apply (status_any _ _ _ H). exact Hst.
  - intros (ph & segs & Hin & Hm). apply In_nth with (d := (0%nat, [])) in Hin. destruct Hin as (k & Hk & Ek). specialize (H k Hk). rewrite Ek in H. cbn [snd] in H.
    apply (status_any _ _ _ H) in Hm. destruct (forallb any (map (status pc) ms)) eqn:Ef; [|reflexivity]. rewrite forallb_forall in Ef.
    rewrite Ef in Hm; [discriminate Hm|]. apply in_map. apply nth_In. rewrite L. exact Hk.
Qed.
Lemma second_len (mp : mpo Rnum) sw z g nodes dd : second_derivative (ph_rc pc) mp sw z g nodes = Ok dd ->
  length dd = o_nph (mp_ocp mp) /\ forall l, In l dd -> length l = mp_nseg mp.
Proof.
  unfold second_derivative_by. intros E. pose proof (mapM_length _ _ _ E) as L. rewrite seq_length in L. split; [exact L|].
  intros l Hl. destruct (In_nth _ _ [] Hl) as (k & Hk & Ek). pose proof (mapM_nth _ _ _ k 0%nat [] E ltac:(rewrite seq_length; nred; lia)) as Es.
  rewrite Ek in Es. match type of Es with bind ?m _ = _ => destruct m as [tg|]; [|discriminate Es] end. cbn [bind] in Es.
  unfold second_derivative_phase_by in Es. destruct (trajectories _ _ _ _) as [tr|]; [|discriminate Es]. cbn [bind] in Es.
  match type of Es with bind ?m _ = _ => destruct m as [nd|]; [|discriminate Es] end. cbn [bind] in Es.
  destruct nd as [nd|]; [|discriminate Es].
  match type of Es with bind ?m _ = _ => destruct m as [ti|]; [|discriminate Es] end. cbn [bind] in Es.
  match type of Es with bind ?m _ = _ => destruct m as [D|]; [|discriminate Es] end. cbn [bind] in Es.
  pose proof (mapM_length _ _ _ Es) as Ls. rewrite seq_length in Ls. exact Ls.
Qed.
Lemma max_res_len nx mp sw z rel r ms : states_residuals (ph_rc pc) mp sw z None None rel = Ok r -> max_residuals (N := Rnum) nx r = Ok ms ->
  length ms = o_nph (mp_ocp mp) /\ forall m, In m ms -> length m = mp_nseg mp.
Proof.
  intros Er Em. destruct (states_len _ _ _ _ _ _ Er) as [L1 L2]. destruct (phases_any _ _ _ Em) as (L3 & H & _).
  split; [rewrite L3, <- (map_length fst), L1, seq_length; reflexivity|].
  intros m Hm. destruct (In_nth _ _ [] Hm) as (k & Hk & Ek). rewrite L3 in Hk. specialize (H k Hk). destruct (nth k r (0%nat, [])) as [ph segs] eqn:En.
  cbn [snd] in H. nred. rewrite Ek in H. rewrite (mapM_length _ _ _ H). apply (L2 ph). rewrite <- En. apply nth_In. exact Hk.
Qed.
Lemma at_lt {A} (l : list A) i a : at_ l i = Ok a -> (i < length l)%nat.
Proof.
  intros E. destruct (Nat.lt_ge_cases i (length l)) as [H|H]; [exact H|]. unfold at_ in E. rewrite (proj2 (nth_error_None _ _) H) in E. discriminate E.
Qed.
Lemma split_enough orders (sw : list R) marks x : split_mesh (N := Rnum) orders sw marks = Ok x -> (length marks <= length sw)%nat.
Proof.
  intros E. destruct marks as [|m0 marks]; [cbn; lia|]. remember (m0 :: marks) as l. assert (Hl : (0 < length l)%nat) by (subst; cbn; lia). clear Heql m0 marks.
  unfold split_mesh in E. match type of E with bind ?m _ = _ => destruct m as [parts|] eqn:Ep; [|discriminate E] end. clear E.
  pose proof (mapM_nth _ _ _ (length l - 1)%nat (0%nat, false) ([], []) Ep) as En. unfold enumerate in En. rewrite combine_length, seq_length, Nat.min_id in En.
  specialize (En ltac:(lia)). rewrite combine_nth in En by apply seq_length. rewrite seq_nth in En by lia.
  rewrite Nat.add_0_l in En. match type of En with bind ?m _ = _ => destruct m as [w|] eqn:Ea; [|discriminate En] end. apply at_lt in Ea. nred. lia.
Qed.

(** the last call of the solver in [h'], its result and its residuals *)
Definition last_run (h' : list (solved (N := Rnum))) (z : list R) (m : mpo Rnum) (w : list R) (rs : list (nat * list (option (segstate (N := Rnum))))) : Prop :=
  ok (m, w) /\ exists h0, h' = h0 ++ [(m, w)] /\ run h0 m w = Ok z /\ states_residuals (ph_rc pc) m w z None None true = Ok rs.
Definition some_met (rs : list (nat * list (option (segstate (N := Rnum))))) : Prop :=
  exists ph segs, In (ph, segs) rs /\ phase_met (o_nx o) (ph_tol pc) segs.

Definition pass_out (mp : mpo Rnum) (h' : list (solved (N := Rnum))) (r : res (list R + list R * (list nat * list R))) : Prop :=
  match r with
  | Raise _ => True
  | Ok (inl z) => exists m w rs, last_run h' z m w rs /\ some_met rs
  | Ok (inr (z, (os, ws))) => exists m w rs marks, last_run h' z m w rs /\ ~ some_met rs /\ mp_nseg m = mp_nseg mp /\
      length (mp_orders m) = length marks /\ (length marks <= length w)%nat /\ split_mesh (mp_orders m) w marks = Ok (os, ws)
  end.
Definition pass_res (mp : mpo Rnum) (h h' : list (solved (N := Rnum))) (r : res (list R + list R * (list nat * list R))) : Prop :=
  exists runs, h' = h ++ runs /\ Forall ok runs /\ (1 <= length runs <= 2)%nat /\ (exists w, nth_error runs 0 = Some (mp, w)) /\
  (match r with Ok (inr _) => length runs = 2%nat | _ => True end) /\ pass_out mp h' r.
Lemma pass_inv mp h h' r : mesh_ok mp -> ph_pass pc run user_sw mp h = (h', r) -> pass_res mp h h' r.
Proof.
  intros Hmp E. unfold ph_pass in E. apply wbind_inv in E. destruct E as (h1 & [(e & E & -> & ->)|((w, z) & E & E2)]).
  { destruct (solve_run _ _ _ _ Hmp E) as (w & Hok & -> & _). exists [(mp, w)]. repeat split; auto; try (cbn; lia). exists w. reflexivity. }
  destruct (solve_run _ _ _ _ Hmp E) as (w' & Hok & -> & -> & Hrun). clear E. destruct Hmp as (M1 & M2 & M3 & M4).
  assert (Base : forall r0, (match r0 with Ok (inr _) => False | _ => True end) -> pass_out mp (h ++ [(mp, w')]) r0 -> pass_res mp h (h ++ [(mp, w')]) r0).
  { intros r0 Hr H. exists [(mp, w')]. repeat split; auto; try (cbn; lia). 1: exists w'; reflexivity. destruct r0 as [[z0|z0]|]; [exact I|destruct Hr|exact I]. }
  apply wbind_lift in E2. destruct E2 as [(e & _ & -> & ->)|(rs & Ers & E)]; [apply Base; exact I|].
  apply wbind_lift in E. destruct E as [(e & _ & -> & ->)|(ms & Ems & E)]; [apply Base; exact I|]. cbv zeta in E.
  rewrite M1 in Ems. destruct (phases_any _ _ _ Ems) as (_ & _ & Hany).
  destruct (forallb any (map (status pc) ms)) eqn:Ef; cbn [negb] in E.
  2:{ inversion E; subst h' r. apply Base; [exact I|]. exists mp, w', rs. split; [split; [exact Hok|]; exists h; auto|]. apply Hany. reflexivity. }
  apply wbind_lift in E. destruct E as [(e & _ & -> & ->)|(taus & Etaus & E)]; [apply Base; exact I|].
  apply wbind_lift in E. destruct E as [(e & _ & -> & ->)|(dd & Edd & E)]; [apply Base; exact I|].
  destruct (max_res_len _ _ _ _ _ _ _ Ers Ems) as (Lm & Lm').
  set (orders := raise_orders (mp_orders mp) (map (status pc) ms)) in *.
  assert (Lo : length orders = mp_nseg mp).
  { unfold orders. rewrite raise_len; [exact M3|]. intros st Hst. apply in_map_iff in Hst. destruct Hst as (m & <- & Hm). unfold status. rewrite map_length, M3. apply Lm'. exact Hm. }
  set (mp2 := Mpo (mp_ocp mp) (mp_nseg mp) (limit_poly_orders pc orders) (mp_cf mp)) in *.
  assert (Hmp2 : mesh_ok mp2).
  { destruct (limited_ok pc orders Hlim) as (B & L & _). repeat split; auto; try apply B; auto. cbn [mp2 mp_orders mp_nseg]. rewrite L. exact Lo. }
  assert (Two : forall h1 w2 r0, ok (mp2, w2) -> h1 = (h ++ [(mp, w')]) ++ [(mp2, w2)] -> pass_out mp h1 r0 -> pass_res mp h h1 r0).
  { intros h1 w2 r0 Hw2 -> H. exists [(mp, w'); (mp2, w2)]. split; [rewrite <- app_assoc; reflexivity|]. repeat split; auto; try (cbn; lia). 1: exists w'; reflexivity.
    destruct r0 as [[z0|z0]|]; auto. }
  apply wbind_inv in E. destruct E as (h1 & [(e & E & -> & ->)|((w2, z2) & E & E2)]).
  { destruct (solve_run _ _ _ _ Hmp2 E) as (w2 & Hok2 & -> & _). apply (Two _ w2); auto. exact I. }
  destruct (solve_run _ _ _ _ Hmp2 E) as (w2' & Hok2 & -> & -> & Hrun2). clear E.
  apply wbind_lift in E2. destruct E2 as [(e & _ & -> & ->)|(rs2 & Ers2 & E)]; [apply (Two _ w2'); auto; exact I|].
  apply wbind_lift in E. destruct E as [(e & _ & -> & ->)|(ms2 & Ems2 & E)]; [apply (Two _ w2'); auto; exact I|].
  apply wbind_lift in E. destruct E as [(e & _ & -> & ->)|(dd2 & Edd2 & E)]; [apply (Two _ w2'); auto; exact I|].
  rewrite M1 in Ems2. destruct (phases_any _ _ _ Ems2) as (_ & _ & Hany2).
  apply wbind_lift in E. destruct E as [(e & _ & -> & ->)|(rgh & Ergh & E)]; [apply (Two _ w2'); auto; exact I|].
  assert (LR : last_run ((h ++ [(mp, w')]) ++ [(mp2, w2')]) z2 mp2 w2' rs2) by (split; [exact Hok2|]; exists (h ++ [(mp, w')]); auto).
  destruct (forallb any (map (status pc) ms2)) eqn:Ef2; cbn [negb] in E.
  2:{ inversion E; subst h' r. apply (Two _ w2'); auto. exists mp2, w2', rs2. split; [exact LR|]. apply Hany2. reflexivity. }
  apply wbind_lift in E. destruct E as [(e & _ & -> & ->)|(meshes & Emesh & E)]; [apply (Two _ w2'); auto; exact I|].
  apply wbind_lift in E. destruct E as [(e & _ & -> & ->)|((os, ws) & El & E)]; [apply (Two _ w2'); auto; exact I|].
  inversion E; subst h' r. clear E. apply (Two _ w2'); auto.
  destruct (max_res_len _ _ _ _ _ _ _ Ers2 Ems2) as (Lm2 & Lm2'). destruct (second_len _ _ _ _ _ _ Edd) as (Ld & Ld'). destruct (second_len _ _ _ _ _ _ Edd2) as (Ld2 & Ld2').
  assert (Hin : exists k, (k < length meshes)%nat /\ nth k meshes ([], []) = (os, ws)).
  { assert (Hl : meshes <> []) by (intros C; rewrite C in El; discriminate El). exists (length meshes - 1)%nat. split; [destruct meshes; [contradiction|cbn; lia]|]. rewrite (last_ok meshes ([], []) Hl) in El. injection El. auto. }
  destruct Hin as (k & Hk & Ek). rewrite (mapM_length _ _ _ Emesh) in Hk.
  pose proof (mapM_nth _ _ _ k ([], []) ([], []) Emesh Hk) as Es. nred. rewrite Ek in Es.
  rewrite combine_length, map_length, (mapM_length _ _ _ Ergh), !combine_length, map_length in Hk.
  cbn [mp2 mp_ocp mp_nseg] in Lm2, Lm2', Ld2, Ld2'. nred.
  assert (Hk' : (k < o_nph (mp_ocp mp))%nat) by lia.
  assert (Lr : length rgh = length (map (status pc) ms2)).
  { rewrite (mapM_length _ _ _ Ergh), !combine_length, !map_length. nred. lia. }
  rewrite combine_nth in Es by (symmetry; exact Lr).
  set (st := nth k (map (status pc) ms2) []) in *. set (rg := nth k rgh []) in *.
  assert (Lst : length st = mp_nseg mp).
  { unfold st. assert (Hst : In (nth k (map (status pc) ms2) []) (map (status pc) ms2)) by (apply nth_In; rewrite map_length; nred; lia).
    apply in_map_iff in Hst. destruct Hst as (m & <- & Hm). unfold status. rewrite map_length. apply Lm2'. exact Hm. }
  assert (Lrg : length rg = mp_nseg mp).
  { pose proof (mapM_nth _ _ _ k ([], ([], [])) [] Ergh) as Eg. rewrite !combine_length, map_length in Eg. specialize (Eg ltac:(nred; lia)).
    rewrite combine_nth in Eg by (rewrite combine_length, map_length; nred; lia). rewrite combine_nth in Eg by (nred; lia).
    fold st in Eg. fold rg in Eg. assert (Hany' : any st = true). { rewrite forallb_forall in Ef2. apply Ef2. unfold st. apply nth_In. rewrite map_length. nred. lia. }
    match type of Eg with (if ?b then _ else _) = _ => replace b with true in Eg by (symmetry; exact Hany') end. rewrite (mapM_length _ _ _ Eg), combine_length. rewrite (Ld' (nth k dd [])), (Ld2' (nth k dd2 [])) by (apply nth_In; nred; lia). apply Nat.min_id. }
  exists mp2, w2', rs2, (map (fun '(a, b) => andb a b) (combine st rg)).
  split; [exact LR|]. split; [intros C; apply Hany2 in C; discriminate C|]. split; [reflexivity|].
  assert (Lc : length (map (fun '(a, b) => andb a b) (combine st rg)) = mp_nseg mp) by (rewrite map_length, combine_length, Lst, Lrg; apply Nat.min_id).
  split; [rewrite Lc; apply Hmp2|]. split; [apply (split_enough _ _ _ _ Es)|exact Es].
Qed.

Theorem loop_inv k : forall mp new h h' r, mesh_ok mp -> ph_loop pc run user_sw k mp new h = (h', r) ->
  exists runs, h' = h ++ runs /\ Forall ok runs /\ (length runs <= 2 * k)%nat /\
  match r with
  | Raise _ => True
  | Ok z => (k = 0%nat /\ new = Some z) \/ exists m w rs, last_run h' z m w rs /\ (some_met rs \/ length runs = (2 * k)%nat)
  end.
Proof.
  induction k as [|k IH]; intros mp new h h' r Hmp E; cbn [ph_loop] in E.
  - unfold wlift in E. inversion E; subst h' r. exists []. rewrite app_nil_r. repeat split; auto. destruct new; cbn; auto.
  - apply wbind_inv in E. destruct E as (h1 & [(e & E & -> & ->)|(a & E & E2)]).
    { destruct (pass_inv _ _ _ _ Hmp E) as (runs & -> & F & L & _). exists runs. repeat split; auto. lia. }
    destruct (pass_inv _ _ _ _ Hmp E) as (runs & -> & F & L & _ & L2 & P). clear E.
    destruct a as [z|[z [os ws]]].
    { inversion E2; subst h' r. exists runs. repeat split; auto; [lia|]. right. destruct P as (m & w & rs & P1 & P2). exists m, w, rs. auto. }
    destruct P as (m & w & rs & marks & P1 & P2 & P3 & P4 & P5 & P6).
    destruct (split_ok _ _ _ P4 P5) as (os' & ws' & Es & _ & Lw & _ & I & _). nred.
    assert (X : Ok (os', ws') = Ok (os, ws)) by (etransitivity; [symmetry; exact Es|exact P6]). inversion X; subst os' ws'. clear X Es P6.
    destruct P1 as (Hm & h0 & Eh & Erun & Ers). pose proof Hm as Hm0.
    destruct Hm as (Q1 & Q2 & Q3 & Q4 & _). destruct Hmp as (M1 & M2 & _ & _).
    assert (Hnext : mesh_ok (Mpo (mp_ocp mp) (length ws) os (mp_cf mp))) by (split; [exact M1|]; split; [exact M2|]; split; [exact Lw|]; intros p Hp; apply Q4, I; exact Hp).
    destruct (IH _ _ _ _ _ Hnext E2) as (runs2 & -> & F2 & L3 & P).
    exists (runs ++ runs2). split; [now rewrite app_assoc|]. split; [apply Forall_app; auto|]. rewrite app_length. split; [lia|].
    destruct r as [z'|]; [|exact Logic.I]. right. destruct P as [[-> Ez]|(m' & w' & rs' & P1 & P2')].
    + inversion Ez; subst z'. exists m, w, rs. split; [split; [exact Hm0|]; exists h0; split; [|auto]|right; cbn in L3; lia].
      destruct runs2; [|cbn in L3; lia]. rewrite app_nil_r. exact Eh.
    + exists m', w', rs'. split; [exact P1|]. destruct P2'; [left; auto|right; lia].
Qed.
End Loop.

Theorem rest_ok (pc : phcfg (N := Rnum)) run user_sw (mp : mpo Rnum) k h h' r :
  length (mp_orders mp) = mp_nseg mp -> (ph_min pc <= ph_max pc)%nat -> within_limits (ph_min pc) (ph_max pc) (mp_orders mp) ->
  ph_rest pc run user_sw mp k h = (h', r) ->
  exists runs, h' = h ++ runs /\ Forall (run_ok (mp_ocp mp) (mp_cf mp) (ph_min pc) (ph_max pc) user_sw) runs /\ (length runs <= 2 * k)%nat /\
  match r with
  | Raise _ => True
  | Ok z => exists h0 m w rs, h' = h0 ++ [(m, w)] /\ run h0 m w = Ok z /\ states_residuals (ph_rc pc) m w z None None true = Ok rs /\
      map fst rs = seq 0 (o_nph (mp_ocp mp)) /\
      ((exists ph segs, In (ph, segs) rs /\ phase_met (o_nx (mp_ocp mp)) (ph_tol pc) segs) \/ length runs = (2 * k)%nat)
  end.
Proof.
  intros H1 H2 H3 E. destruct (loop_inv pc run user_sw (mp_ocp mp) (mp_cf mp) H2 k mp None h h' r) as (runs & -> & F & L & P).
  { repeat split; auto; apply H3; auto. } { exact E. }
  exists runs. split; [reflexivity|]. split; [exact F|]. split; [exact L|]. destruct r as [z|]; [|exact I].
  destruct P as [[_ P]|(m & w & rs & (Hm & h0 & Eh & Er & Es) & P)]; [discriminate P|]. exists h0, m, w, rs. repeat split; auto.
  destruct (states_len _ _ _ _ _ _ Es) as (L1 & _). rewrite L1. f_equal. f_equal.
  destruct Hm as (-> & _). reflexivity.
Qed.
