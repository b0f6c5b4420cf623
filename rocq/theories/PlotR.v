(** Plots: proofs. *)
From Coq Require Import String.
From Coq Require Import Reals.
From Coq Require Import List Lia Lra Bool Arith.
From Verif Require Import Num PyList Mat Poly Roots Colloc Ocp Transcribe Solve Hadapt Resid Adaptive Post Plot
  Spec SpecOcp SpecSolve SpecHadapt SpecResid SpecLoop SpecAdapt SpecPost SpecPlot NumR ListR PostR PostMain.
Import ListNotations.
Open Scope R_scope.
Open Scope list_scope.
Local Notation canvas := (canvas (N := Rnum)).
Local Notation curve := (curve (N := Rnum)).

(** the canvas with more curves *)
Definition plus (s : canvas) (l : list curve) : canvas := Canvas (N := Rnum) (cs_figs s) (cs_curves s ++ l).
Lemma plus_nil s : plus s [] = s.
Proof. destruct s. unfold plus. cbn. now rewrite app_nil_r. Qed.
Lemma plus_plus s l l' : plus (plus s l) l' = plus s (l ++ l').
Proof. unfold plus. cbn. now rewrite app_assoc. Qed.

(** ** plot_curve *)
Definition one (a : axis) (m : mat Rnum) (t : list R) (fmt : nat -> string) (label : nat -> option string) (i : nat) : curve :=
  Curve (N := Rnum) a t (map (fun r => mget m r i) (seq 0 (nr m))) (fmt i) (label i).
Lemma curves_one a m t fmt label : curves_of a m t fmt label = map (one a m t (fun _ => fmt) label) (seq 0 (nc m)).
Proof. reflexivity. Qed.
Lemma draw_ok a t (m : mat Rnum) i fmt lab s : length t = nr m ->
  draw (N := Rnum) a t (mcolumn m i) fmt lab s = (plus s [Curve (N := Rnum) a t (map (fun r => mget m r i) (seq 0 (nr m))) fmt lab], Ok tt).
Proof. intros H. unfold draw, mcolumn. rewrite map_length, seq_length, H, Nat.eqb_refl. reflexivity. Qed.
Section Curve.
Variables (a : axis) (m : mat Rnum) (t : list R) (name : option string) (tics : list string) (leg : option (list string)).
Hypothesis Ht : length t = nr m.
Definition index_of (i : nat) : string := match leg with None => show (i + 1) | Some l => nth i l ""%string end.
Definition body (i : nat) : D (N := Rnum) unit :=
  dbind (dlift (match leg with None => Ok (show (i + 1)) | Some l => at_ l i end)) (fun index =>
  dbind (dlift (at_ tics i)) (fun fmt => draw (N := Rnum) a t (mcolumn m i) fmt (label_of name index))).
Lemma body_ok i s : (i < length tics)%nat -> (match leg with None => True | Some l => i < length l end)%nat ->
  body i s = (plus s [one a m t (fun i => nth i tics ""%string) (fun i => label_of name (index_of i)) i], Ok tt).
Proof.
  intros H1 H2. unfold body, dbind, dlift.
  assert (E : match leg with None => Ok (show (i + 1)) | Some l => at_ l i end = Ok (index_of i)).
  { unfold index_of. destruct leg as [l|]; [|reflexivity]. now rewrite (at_ok _ i ""%string). }
  rewrite E, (at_ok tics i ""%string) by exact H1. exact (draw_ok a t m i _ _ s Ht).
Qed.
Lemma body_short i s : (length tics <= i)%nat -> (match leg with None => True | Some l => i < length l end)%nat -> body i s = (s, Raise IndexError).
Proof.
  intros H1 H2. unfold body, dbind, dlift.
  assert (E : match leg with None => Ok (show (i + 1)) | Some l => at_ l i end = Ok (index_of i)).
  { unfold index_of. destruct leg as [l|]; [|reflexivity]. now rewrite (at_ok _ i ""%string). }
  rewrite E. unfold at_. rewrite (proj2 (nth_error_None tics i) H1). reflexivity.
Qed.
Lemma each_body n : forall b s, (b + n <= length tics)%nat -> (match leg with None => True | Some l => b + n <= length l end)%nat ->
  each (seq b n) body s = (plus s (map (one a m t (fun i => nth i tics ""%string) (fun i => label_of name (index_of i))) (seq b n)), Ok tt).
Proof.
  induction n as [|n IH]; intros b s H1 H2; cbn [seq each map]. { now rewrite plus_nil. }
  unfold dbind. rewrite body_ok; [|lia|destruct leg; [lia|exact I]]. rewrite IH; [|lia|destruct leg; [lia|exact I]].
  now rewrite plus_plus.
Qed.
Lemma each_app {A} (l l' : list A) (f : A -> D (N := Rnum) unit) s : each (l ++ l') f s = match each l f s with (s', Ok _) => each l' f s' | x => x end.
Proof.
  revert s. induction l as [|x l IH]; intros s; cbn [app each]; [reflexivity|]. unfold dbind.
  destruct (f x s) as [s1 [[]|e]]; [apply IH|reflexivity].
Qed.
Lemma plot_curve_ok s : (nc m <= length tics)%nat -> (match leg with None => True | Some l => nc m <= length l end)%nat ->
  plot_curve a m t name tics leg s = (plus s (map (one a m t (fun i => nth i tics ""%string) (fun i => label_of name (index_of i))) (seq 0 (nc m))), Ok tt).
Proof. intros H1 H2. exact (each_body (nc m) 0 s H1 H2). Qed.
Lemma plot_curve_short s : (length tics < nc m)%nat -> leg = None ->
  plot_curve a m t name tics leg s = (plus s (map (one a m t (fun i => nth i tics ""%string) (fun i => label_of name (index_of i))) (seq 0 (length tics))), Raise IndexError).
Proof.
  intros H1 H2. change (each (seq 0 (nc m)) body s = (plus s (map (one a m t (fun i => nth i tics ""%string) (fun i => label_of name (index_of i))) (seq 0 (length tics))), Raise IndexError)).
  replace (nc m) with (length tics + (nc m - length tics))%nat by lia. rewrite seq_app, each_app.
  rewrite each_body; [|lia|now rewrite H2]. destruct (nc m - length tics)%nat eqn:E; [lia|]. cbn [seq each]. unfold dbind at 1.
  rewrite body_short; [reflexivity|lia|now rewrite H2].
Qed.
End Curve.

Lemma one_tics a m t fmt k name label n : (n <= k)%nat -> (forall i, (i < n)%nat -> label_of name (show (i + 1)) = label i) ->
  map (one a m t (fun i => nth i (repeat fmt k) ""%string) (fun i => label_of name (index_of None i))) (seq 0 n) = map (one a m t (fun _ => fmt) label) (seq 0 n).
Proof.
  intros H1 H2. apply map_ext_in. intros i Hi. apply in_seq in Hi. unfold one, index_of. f_equal; [|apply H2; lia].
  rewrite (nth_indep _ _ fmt) by (rewrite repeat_length; lia). apply nth_repeat.
Qed.

(** ** plot_all *)
Lemma plot_all_ok (d : pdata (N := Rnum)) fig a0 a1 legend name fmt s :
  length (pd_t d) = nr (pd_x d) -> length (pd_t d) = nr (pd_u d) -> (nc (pd_x d) <= 15)%nat -> (nc (pd_u d) <= 15)%nat ->
  plot_all (pd_x d) (pd_u d) (pd_t d) (Some (repeat fmt 15)) (Some fig) (Some (AxMany [a0; a1])) legend name s =
  (plus s (if legend then node_curves a0 a1 d fmt name else smooth_curves a0 a1 d fmt), Ok (Some fig, AxMany [a0; a1])).
Proof.
  intros H1 H2 H3 H4. unfold plot_all, axes_or. unfold dbind at 1, dret at 1. destruct legend.
  - unfold dbind at 1, dlift at 1. cbn [snd axis_at]. unfold at_ at 1. cbn [nth_error]. unfold tics_or.
    unfold dbind at 1. rewrite plot_curve_ok by (rewrite ?repeat_length; auto). unfold dbind at 1, dlift at 1. unfold at_ at 1. cbn [nth_error].
    unfold dbind at 1. rewrite plot_curve_ok by (rewrite ?repeat_length; auto). rewrite plus_plus. unfold dret, node_curves. rewrite !curves_one.
    rewrite (one_tics a0 _ _ fmt 15 _ (numbered (name ++ "state"))) by (auto; intros; reflexivity).
    rewrite (one_tics a1 _ _ fmt 15 _ (numbered (name ++ "control"))) by (auto; intros; reflexivity). reflexivity.
  - unfold dbind at 1, dlift at 1. cbn [snd axis_at]. unfold at_ at 1. cbn [nth_error]. unfold tics_or.
    unfold dbind at 1. rewrite plot_curve_ok by (rewrite ?repeat_length; auto). unfold dbind at 1, dlift at 1. unfold at_ at 1. cbn [nth_error].
    unfold dbind at 1. rewrite plot_curve_ok by (rewrite ?repeat_length; auto). rewrite plus_plus. unfold dret, smooth_curves. rewrite !curves_one.
    rewrite (one_tics a0 _ _ fmt 15 _ unlabelled) by (auto; intros; reflexivity).
    rewrite (one_tics a1 _ _ fmt 15 _ unlabelled) by (auto; intros; reflexivity). reflexivity.
Qed.

(** ** the data part of plot_phases *)
Lemma plot_all_new (d : pdata (N := Rnum)) legend name tics (s : canvas) :
  plot_all (pd_x d) (pd_u d) (pd_t d) tics None None legend name s =
  let f := S (cs_figs s) in
  plot_all (pd_x d) (pd_u d) (pd_t d) tics (Some f) (Some (AxMany [Axis f 2 1 1; Axis f 2 1 2])) legend name (Canvas (N := Rnum) f (cs_curves s)).
Proof. reflexivity. Qed.

Definition data_ok (d : pdata (N := Rnum)) : Prop :=
  length (pd_t d) = nr (pd_x d) /\ length (pd_t d) = nr (pd_u d) /\ (nc (pd_x d) <= 15)%nat /\ (nc (pd_u d) <= 15)%nat.

(** what plot_phases draws before the residuals *)
Definition data_part (po : post (N := Rnum)) (phases : list nat) (interpolate : bool) (fig : option nat) (axs : option axes)
    (tics : list string) (name : string) : D (N := Rnum) (option nat * axes * list string) :=
  dbind (if interpolate then
           dbind (dlift (get_data po phases true)) (fun p =>
           dbind (plot_all (pd_x p) (pd_u p) (pd_t p) (Some tics) fig axs false "") (fun fa =>
           dret (fst fa, Some (snd fa), dots)))
         else dret (fig, axs, tics)) (fun '(fig, axs, tics) =>
  dbind (dlift (get_data po phases false)) (fun p =>
  dbind (plot_all (pd_x p) (pd_u p) (pd_t p) (Some tics) fig axs true name) (fun fa => dret (fa, tics)))).

Lemma data_part_ok po phases interpolate di dn f a0 a1 fmt name s :
  (interpolate = true -> get_data po phases true = Ok di /\ data_ok di) -> get_data po phases false = Ok dn -> data_ok dn ->
  data_part po phases interpolate (Some f) (Some (AxMany [a0; a1])) (repeat fmt 15) name s =
  (plus s (phase_curves a0 a1 interpolate di dn fmt name), Ok (Some f, AxMany [a0; a1], if interpolate then dots else repeat fmt 15)).
Proof.
  intros Hi En (H1 & H2 & H3 & H4). unfold data_part, phase_curves. destruct interpolate.
  - destruct (Hi eq_refl) as (Ei & I1 & I2 & I3 & I4). unfold dbind at 1. unfold dbind at 1, dlift at 1. rewrite Ei.
    unfold dbind at 1. rewrite plot_all_ok by assumption. cbn [fst snd]. unfold dret at 1. unfold dbind at 1, dlift at 1. rewrite En.
    unfold dbind at 1. unfold dots. rewrite plot_all_ok by assumption. rewrite plus_plus. reflexivity.
  - unfold dbind at 1, dret at 1. unfold dbind at 1, dlift at 1. rewrite En. unfold dbind at 1. rewrite plot_all_ok by assumption. reflexivity.
Qed.
Lemma data_part_new po phases interpolate di dn fmt name (s : canvas) :
  (interpolate = true -> get_data po phases true = Ok di /\ data_ok di) -> get_data po phases false = Ok dn -> data_ok dn ->
  let f := S (cs_figs s) in let a0 := Axis f 2 1 1 in let a1 := Axis f 2 1 2 in
  data_part po phases interpolate None None (repeat fmt 15) name s =
  (Canvas (N := Rnum) f (cs_curves s ++ phase_curves a0 a1 interpolate di dn fmt name), Ok (Some f, AxMany [a0; a1], if interpolate then dots else repeat fmt 15)).
Proof.
  intros Hi En Hd f a0 a1. transitivity (data_part po phases interpolate (Some f) (Some (AxMany [a0; a1])) (repeat fmt 15) name (Canvas (N := Rnum) f (cs_curves s))).
  - unfold data_part. destruct interpolate.
    + unfold dbind. destruct (Hi eq_refl) as (Ei & _). unfold dlift. rewrite Ei. rewrite plot_all_new. reflexivity.
    + unfold dbind, dret, dlift. rewrite En. rewrite plot_all_new. reflexivity.
  - rewrite (data_part_ok po phases interpolate di dn f a0 a1 fmt name _ Hi En Hd). reflexivity.
Qed.

Definition resid_part (r : resid_data (N := Rnum)) (f : nat) (tics : list string) : D (N := Rnum) (option nat * axes) :=
  let base := [Axis f 2 2 1; Axis f 2 2 3] in
  match rd_x r, rd_dx r with
  | Some rx, Some (tdx, rdx) =>
      let a2 := Axis f 2 2 2 in let a3 := Axis f 2 2 4 in
      dbind (plot_errors a2 (states_times rx) (stack_rows (known (List.concat (states_rows rx)))) "x" tics) (fun _ =>
      dbind (plot_errors a3 (map (map Some) tdx) (stack_rows (known (List.concat rdx))) "dx" tics) (fun _ =>
      dret (Some f, AxMany (base ++ [a2; a3]))))
  | Some rx, None =>
      let a2 := Axis f 1 2 2 in
      dbind (plot_errors a2 (states_times rx) (stack_rows (known (List.concat (states_rows rx)))) "x" tics) (fun _ =>
      dret (Some f, AxMany (base ++ [a2])))
  | None, Some (tdx, rdx) =>
      let a2 := Axis f 1 2 2 in
      dbind (dlift (mapM (fun r => match known r with [] => Raise ValueError | l => Ok (List.concat l) end) rdx)) (fun y =>
      dbind (plot_errors a2 (map (map Some) tdx) (stack_rows y) "dx" tics) (fun _ =>
      dret (Some f, AxMany (base ++ [a2]))))
  | None, None => dlift (Raise KeyError)
  end.
Lemma dbind_assoc {A B C} (m : D (N := Rnum) A) (f : A -> D B) (g : B -> D C) s : dbind (dbind m f) g s = dbind m (fun a => dbind (f a) g) s.
Proof. unfold dbind. destruct (m s) as [s' [x|e]]; reflexivity. Qed.
Lemma phases_split (po : post (N := Rnum)) phases interpolate residuals fig axs tics name s :
  let ph := match phases with Some l => l | None => po_phases po end in
  plot_phases po phases interpolate residuals fig axs tics name s =
  match (if residuals then po_resid po else None) with
  | Some r => let f := S (cs_figs s) in
      match data_part po ph interpolate (Some f) (Some (AxMany [Axis f 2 2 1; Axis f 2 2 3])) tics name (Canvas (N := Rnum) f (cs_curves s)) with
      | (s', Ok (Some f, a, tics)) => resid_part r f tics s'
      | (s', Ok (None, a, tics)) => (s', Ok (None, a))
      | (s', Raise e) => (s', Raise e)
      end
  | None => match data_part po ph interpolate fig axs tics name s with (s', Ok (fa, _)) => (s', Ok fa) | (s', Raise e) => (s', Raise e) end
  end.
Proof.
  intros ph. unfold plot_phases. fold ph. destruct (if residuals then po_resid po else None) as [r|].
  - unfold data_part. unfold dbind at 1, figure, dbind at 1, dret at 1. cbn [fst snd cs_figs cs_curves].
    set (X := if interpolate then _ else _). clearbody X. unfold resid_part, dbind, dlift, dret.
    destruct (X _) as [s1 [[[f1 a1] t1]|e]]; [|reflexivity]. destruct (get_data po ph false) as [p|e]; [|reflexivity].
    destruct (plot_all _ _ _ _ f1 a1 true name s1) as [s2 [[[f2|] a2]|e]]; reflexivity.
  - unfold data_part. unfold dbind at 1, dret at 1. cbn [fst snd]. set (X := if interpolate then _ else _). clearbody X.
    unfold dbind, dlift, dret.
    destruct (X _) as [s1 [[[f1 a1] t1]|e]]; [|reflexivity]. destruct (get_data po ph false) as [p|e]; [|reflexivity].
    destruct (plot_all _ _ _ _ f1 a1 true name s1) as [s2 [[[f2|] a2]|e]]; reflexivity.
Qed.

(** ** times and residuals *)
Local Notation rows := (rows (N := Rnum)).
Lemma forallb_level (v : list R) p :
  forallb (fun w : option (list R) => match w with Some w => Nat.eqb (length w) (length v) | None => false end) (map Some p) = true <-> level (length v) p.
Proof.
  unfold level. rewrite forallb_forall. split.
  - intros H t Ht. apply Nat.eqb_eq. exact (H (Some t) (in_map Some p t Ht)).
  - intros H w Hw. apply in_map_iff in Hw. destruct Hw as (t & <- & Ht). apply Nat.eqb_eq. auto.
Qed.
Lemma shape_level p m : p <> [] -> (phase_shape (N := Rnum) (map Some p) = Some m <-> level m p).
Proof.
  intros Hp. destruct p as [|v p]; [congruence|]. unfold phase_shape. cbn [map]. nred.
  change (Some v :: map Some p) with (map (@Some (list R)) (v :: p)).
  pose proof (forallb_level v (v :: p)) as H. destruct (forallb _ _).
  - split.
    + intros [= <-]. apply H. reflexivity.
    + intros L. f_equal. apply L. now left.
  - split; [discriminate|]. intros L. exfalso. assert (E : length v = m) by (apply L; now left). rewrite <- E in L. apply H in L. discriminate.
Qed.
Lemma shape_none p : p <> [] -> (phase_shape (N := Rnum) (map Some p) = None <-> forall m, ~ level m p).
Proof.
  intros Hp. split.
  - intros E m L. apply (shape_level p m Hp) in L. congruence.
  - intros H. destruct (phase_shape _) as [m|] eqn:E; [|reflexivity]. exfalso. apply (H m). apply shape_level; assumption.
Qed.
Lemma same_shape_eq a b : same_shape a b = true <-> a = b.
Proof. destruct a, b; cbn; try (split; congruence). rewrite Nat.eqb_eq. split; congruence. Qed.
Lemma alike_shapes p ts : (forall q, In q (p :: ts) -> q <> []) ->
  (forallb (fun q => same_shape (phase_shape (N := Rnum) q) (phase_shape (map Some p))) (map (map Some) (p :: ts)) = true <-> alike (p :: ts)).
Proof.
  intros Hne. rewrite forallb_forall. split.
  - intros H. assert (K : forall q, In q (p :: ts) -> phase_shape (N := Rnum) (map Some q) = phase_shape (map Some p)).
    { intros q Hq. apply same_shape_eq. apply H. exact (in_map (map Some) _ _ Hq). }
    destruct (phase_shape (N := Rnum) (map Some p)) as [m|] eqn:E.
    + left. exists m. intros q Hq. apply shape_level; auto.
    + right. intros q Hq. apply shape_none; auto.
  - intros H q Hq. apply in_map_iff in Hq. destruct Hq as (q' & <- & Hq). apply same_shape_eq. destruct H as [(m & H)|H].
    + rewrite (proj2 (shape_level q' m (Hne _ Hq)) (H _ Hq)). symmetry. apply shape_level; [apply Hne; now left|apply H; now left].
    + rewrite (proj2 (shape_none q' (Hne _ Hq)) (H _ Hq)). symmetry. apply shape_none; [apply Hne; now left|apply H; now left].
Qed.
Lemma all_some_map {A} (l : list A) : all_some (map Some l) = Some l.
Proof. induction l as [|x l IH]; cbn; [reflexivity|]. now rewrite IH. Qed.
Lemma join_ok ts : ts <> [] -> (forall q, In q ts -> q <> []) -> alike ts -> join_times (N := Rnum) (map (map Some) ts) = Ok (concat (concat ts)).
Proof.
  intros Hts Hne Ha. destruct ts as [|p ts]; [congruence|]. unfold join_times. cbn [map]. change (map Some p :: map (map Some) ts) with (map (map (@Some (list R))) (p :: ts)).
  pose proof (alike_shapes p ts Hne) as H. nred. rewrite (proj2 H Ha). rewrite <- concat_map. rewrite all_some_map. reflexivity.
Qed.
Lemma join_bad ts : ts <> [] -> (forall q, In q ts -> q <> []) -> ~ alike ts -> join_times (N := Rnum) (map (map Some) ts) = Raise ValueError.
Proof.
  intros Hts Hne Ha. destruct ts as [|p ts]; [congruence|]. unfold join_times. cbn [map]. change (map Some p :: map (map Some) ts) with (map (map (@Some (list R))) (p :: ts)).
  pose proof (alike_shapes p ts Hne) as H. nred. destruct (forallb _ _); [exfalso; apply Ha, H; reflexivity|reflexivity].
Qed.

(** all rows of residuals *)
Definition all_rows (rs : list (list rows)) : list (list R) := concat (map (fun r : rows => match r with Some m => m | None => [] end) (concat rs)).
Lemma known_rows (l : list rows) : concat (known l) = concat (map (fun r : rows => match r with Some m => m | None => [] end) l).
Proof. induction l as [|[m|] l IH]; [reflexivity| |exact IH]. change (m ++ concat (known l) = m ++ concat (map (fun r : rows => match r with Some m => m | None => [] end) l)). now rewrite IH. Qed.
Lemma known_some (l : list rows) m : In (Some m) l -> known l <> [].
Proof. induction l as [|[m'|] l IH]; cbn; [tauto|discriminate|]. intros [C|H]; [discriminate|]. auto. Qed.
Lemma in_rows rs row : In row (all_rows rs) <-> exists p m, In p rs /\ In (Some m) p /\ In row m.
Proof.
  unfold all_rows. rewrite in_concat. split.
  - intros (l & Hl & Hr). apply in_map_iff in Hl. destruct Hl as (r & <- & Hr'). apply in_concat in Hr'. destruct Hr' as (p & Hp & Hpr).
    destruct r as [m|]; [|destruct Hr]. exists p, m. auto.
  - intros (p & m & Hp & Hm & Hr). exists m. split; [|exact Hr]. apply in_map_iff. exists (Some m). split; [reflexivity|]. apply in_concat. eauto.
Qed.
Definition rows_mat (rows : list (list R)) (n : nat) : mat Rnum := Mat (N := Rnum) (length rows) n (fun i j => nth j (nth i rows []) 0).
Lemma stack_ok (l : list (list (list R))) n : concat l <> [] -> (forall row, In row (concat l) -> length row = n) ->
  stack_rows (N := Rnum) l = Ok (rows_mat (concat l) n).
Proof.
  intros Hne Hn. unfold stack_rows. destruct l as [|x l]; [cbn in Hne; congruence|]. set (L := x :: l) in *. nred.
  assert (E : length (nth 0 (concat L) []) = n) by (apply Hn, nth_In; destruct (concat L); [congruence|cbn; lia]).
  rewrite E. replace (forallb _ _) with true; [reflexivity|]. symmetry. apply forallb_forall. intros r Hr. apply Nat.eqb_eq. auto.
Qed.
Lemma total_match (ts : list (list (list R))) (rs : list (list rows)) : Forall2 (Forall2 (fun (t : list R) (r : rows) => length t = match r with Some m => length m | None => 0%nat end)) ts rs ->
  length (concat (concat ts)) = length (all_rows rs).
Proof.
  intros H. unfold all_rows. assert (K : Forall2 (fun (t : list R) (r : rows) => length t = match r with Some m => length m | None => 0%nat end) (concat ts) (concat rs)).
  { induction H as [|p q ps qs Hp Hq IH]; cbn; [constructor|]. apply Forall2_app; assumption. }
  induction K as [|t r ts' rs' E K IH]; cbn; [reflexivity|]. rewrite !app_length, IH. rewrite E. destruct r; reflexivity.
Qed.
Lemma column_rows (rs : list (list rows)) n i : map (fun r => mget (rows_mat (all_rows rs) n) r i) (seq 0 (length (all_rows rs))) =
  concat (map (fun r : rows => match r with Some m => map (fun row => nth i row 0) m | None => [] end) (concat rs)).
Proof.
  transitivity (map (fun row => nth i row 0) (all_rows rs)).
  - cbn [rows_mat mget]. rewrite <- (map_map (fun r => nth r (all_rows rs) []) (fun row => nth i row 0)). f_equal.
    induction (all_rows rs) as [|x l IH]; cbn; [reflexivity|]. f_equal. rewrite <- seq_shift, map_map. exact IH.
  - unfold all_rows. rewrite concat_map, map_map. f_equal. apply map_ext. intros [m|]; reflexivity.
Qed.
Lemma errors_ok a ts (rs : list (list rows)) l n name fmt s : error_data n ts rs -> (n <= 15)%nat -> alike ts -> concat l = all_rows rs ->
  plot_errors a (map (map Some) ts) (stack_rows (N := Rnum) l) name (repeat fmt 15) s = (plus s (error_curves a ts rs n name fmt), Ok tt).
Proof.
  intros (H1 & H2 & H3 & H4 & H5) Hn Ha El. unfold plot_errors, dbind, dlift. rewrite join_ok by assumption.
  assert (Hr : forall row, In row (concat l) -> length row = n).
  { intros row Hrow. rewrite El in Hrow. apply in_rows in Hrow. destruct Hrow as (p & m & Hp & Hm & Hr). eauto. }
  assert (Hne : concat l <> []).
  { rewrite El. destruct rs as [|p rs]; [inversion H3; subst; congruence|]. destruct (H4 p (or_introl eq_refl)) as (m & row & Hm & Hrow). intros C.
    assert (K : In row (all_rows (p :: rs))) by (apply in_rows; exists p, m; cbn; auto). rewrite C in K. destruct K. }
  rewrite (stack_ok l n Hne Hr). rewrite El. rewrite plot_curve_ok.
  - rewrite (one_tics _ _ _ fmt 15 _ (numbered name)) by (cbn [rows_mat nc]; auto). f_equal. f_equal. unfold error_curves. apply map_ext. intros i. unfold one. f_equal.
    apply column_rows.
  - cbn [rows_mat nr]. apply total_match. exact H3.
  - rewrite repeat_length. exact Hn.
  - exact I.
Qed.
Lemma errors_bad a ts (rs : list (list rows)) y n name tics s : error_data n ts rs -> ~ alike ts ->
  plot_errors a (map (map Some) ts) y name tics s = (s, Raise ValueError).
Proof. intros (H1 & H2 & _) Ha. unfold plot_errors, dbind, dlift. rewrite join_bad by assumption. reflexivity. Qed.
Lemma each_known (rs : list (list rows)) : (forall p, In p rs -> exists m row, In (Some m) p /\ In row m) ->
  mapM (fun r => match known r with [] => Raise ValueError | l => Ok (concat l) end) rs = Ok (map (fun r => concat (known r)) rs).
Proof.
  induction rs as [|p rs IH]; intros H; cbn [mapM map]; [reflexivity|].
  destruct (H p (or_introl eq_refl)) as (m & row & Hm & _). pose proof (known_some p m Hm) as Hk. rewrite IH by (intros q Hq; apply H; now right).
  destruct (known p); [congruence|reflexivity].
Qed.
Lemma concat_known (rs : list (list rows)) : concat (map (fun r => concat (known r)) rs) = all_rows rs.
Proof.
  induction rs as [|p rs IH]; [reflexivity|]. cbn [map]. change (concat (known p) ++ concat (map (fun r => concat (known r)) rs) = all_rows (p :: rs)).
  rewrite IH, known_rows. unfold all_rows. change (concat (p :: rs)) with (p ++ concat rs). now rewrite map_app, concat_app.
Qed.
