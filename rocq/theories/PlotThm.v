(** Plots of residuals of a solution; plots of chosen dimensions (proofs). *)
From Coq Require Import String.
From Coq Require Import Reals.
From Coq Require Import List Lia Lra Bool Arith.
From Verif Require Import Num PyList Mat Poly Roots Colloc Ocp Transcribe Solve Hadapt Resid Adaptive Post Plot
  Spec SpecOcp SpecSolve SpecHadapt SpecResid SpecLoop SpecAdapt SpecPost SpecPlot NumR ListR NlpR GridR GridThm ResidR ResidMain PostR PostMain PostTotal RefineThm PostGrid PlotR PlotMain.
Import ListNotations.
Open Scope R_scope.
Open Scope list_scope.
Local Notation canvas := (canvas (N := Rnum)).
Local Notation curve := (curve (N := Rnum)).

(** ** chosen dimensions *)
Lemma columns_ok (m : mat Rnum) l : (forall j, In j l -> (j < nc m)%nat) ->
  columns m l = Ok (Mat (N := Rnum) (nr m) (length l) (fun i j => mget m i (nth j l 0%nat))).
Proof. intros H. unfold columns. rewrite (proj2 (forallb_forall _ l)); [reflexivity|]. intros j Hj. apply Nat.ltb_lt. auto. Qed.
Lemma chosen_ok a (m : mat Rnum) t name fmt l (s : canvas) : length t = nr m -> fits (nc m) l ->
  dbind (dlift (columns m l)) (fun x => plot_curve a x t name (repeat fmt 15) (Some (map show l))) s = (plus s (chosen_curves a m t fmt name l), Ok tt).
Proof.
  intros Ht [Hl Hj]. unfold dbind, dlift. rewrite columns_ok by exact Hj. rewrite plot_curve_ok; cbn [nr nc].
  - f_equal. f_equal. unfold chosen_curves.
    transitivity (map (fun i => Curve (N := Rnum) a t (map (fun r => mget m r (nth i l 0%nat)) (seq 0 (nr m))) fmt
      (match name with Some n => Some (n ++ " " ++ show (nth i l 0%nat))%string | None => None end)) (seq 0 (length l))).
    + apply map_ext_in. intros i Hi. apply in_seq in Hi. unfold one, index_of. cbn [nr nc mget]. f_equal.
      * rewrite (nth_indep _ _ fmt) by (rewrite repeat_length; lia). apply nth_repeat.
      * rewrite (nth_indep _ _ (show 0)) by (rewrite map_length; lia). rewrite map_nth. destruct name; reflexivity.
    + clear. induction l as [|x l IH]; [reflexivity|]. cbn [length seq map nth]. f_equal. rewrite <- seq_shift, map_map. exact IH.
  - exact Ht.
  - rewrite repeat_length. exact Hl.
  - rewrite map_length. lia.
Qed.
Lemma subplots_many f n (vertical : bool) : (2 <= n)%nat ->
  subplots f (if vertical then n else 1) (if vertical then 1 else n) = AxMany (map (place f n vertical) (seq 0 n)).
Proof.
  intros Hn. unfold subplots, place. destruct vertical.
  - rewrite Nat.mul_1_r. destruct (Nat.eqb_spec n 1); [lia|]. f_equal. rewrite <- seq_shift, map_map. reflexivity.
  - rewrite Nat.mul_1_l. destruct (Nat.eqb_spec n 1); [lia|]. f_equal. rewrite <- seq_shift, map_map. reflexivity.
Qed.
Lemma each_lists (m : mat Rnum) t name fmt (ax : nat -> axis) n l : forall b (s : canvas), length t = nr m -> (forall x, In x l -> fits (nc m) x) -> (b + length l <= n)%nat ->
  each (combine (seq b (length l)) l) (fun '(i, l) => dbind (dlift (axis_at (AxMany (map ax (seq 0 n))) i)) (fun a =>
     dbind (dlift (columns m l)) (fun x => plot_curve a x t name (repeat fmt 15) (Some (map show l))))) s =
  (plus s (concat (map (fun i => chosen_curves (ax (b + i)%nat) m t fmt name (nth i l [])) (seq 0 (length l)))), Ok tt).
Proof.
  induction l as [|x l IH]; intros b s Ht Hl Hb; cbn [length seq combine each map concat]. { now rewrite plus_nil. }
  cbn [length] in Hb. unfold dbind at 1. unfold dbind at 1. unfold dlift at 1. cbn [axis_at].
  rewrite (at_ok _ b (ax 0%nat)) by (rewrite map_length, seq_length; lia). rewrite map_nth, seq_nth by lia. cbn [Nat.add].
  rewrite chosen_ok by (auto; apply Hl; now left). rewrite IH; [|exact Ht|intros; apply Hl; now right|lia].
  rewrite plus_plus. rewrite Nat.add_0_r. f_equal. f_equal. cbn [nth]. f_equal. f_equal. rewrite <- seq_shift, map_map. apply map_ext. intros i.
  replace (S b + i)%nat with (b + S i)%nat by lia. reflexivity.
Qed.
Lemma single_axes (m : mat Rnum) t d name vertical f fmt (s : canvas) : length t = nr m -> dims_fit (nc m) d ->
  plot_single_variable m t d name vertical (Some f) (Some (dims_axes f vertical d)) (Some (repeat fmt 15)) s =
  (plus s (dims_curves f vertical m t fmt name d), Ok (Some f, dims_axes f vertical d)).
Proof.
  intros Ht Hd. unfold plot_single_variable. destruct d as [l|ls]; cbn [dims_fit] in Hd.
  - destruct Hd as [Hne Hf]. destruct l as [|x l]; [congruence|]. set (L := x :: l) in *. unfold dbind at 1, dlift at 1. unfold axes_or. unfold dbind at 1, dret at 1.
    cbn [snd dims_axes]. unfold dbind at 1. unfold dbind at 1, dlift at 1. cbn [the_axis tics_or]. rewrite chosen_ok by assumption. reflexivity.
  - destruct Hd as [Hn Hf]. destruct ls as [|x [|x' ls]]; cbn [length] in Hn; [lia|lia|]. set (L := x :: x' :: ls) in *.
    unfold dbind at 1, dlift at 1. unfold axes_or. unfold dbind at 1, dret at 1. cbn [snd dims_axes tics_or]. unfold dbind at 1. unfold enumerate.
    rewrite (each_lists m t name fmt (place f (length L) vertical) (length L) L 0 s Ht Hf (le_n _)). reflexivity.
Qed.
Lemma single_new (m : mat Rnum) t d name vertical fmt (s : canvas) : length t = nr m -> dims_fit (nc m) d -> let f := S (cs_figs s) in
  plot_single_variable m t d name vertical None None (Some (repeat fmt 15)) s =
  (Canvas (N := Rnum) f (cs_curves s ++ dims_curves f vertical m t fmt name d), Ok (Some f, dims_axes f vertical d)).
Proof.
  intros Ht Hd f. transitivity (plot_single_variable m t d name vertical (Some f) (Some (dims_axes f vertical d)) (Some (repeat fmt 15)) (Canvas (N := Rnum) f (cs_curves s))).
  - unfold plot_single_variable. destruct d as [l|ls]; cbn [dims_fit] in Hd.
    + destruct Hd as [Hne _]. destruct l as [|x l]; [congruence|]. unfold axes_or, dbind at 1, dlift at 1. unfold dbind at 4, dlift at 4.
      unfold dbind at 1. unfold dbind at 1, figure, dret at 1. destruct vertical; reflexivity.
    + destruct Hd as [Hn _]. destruct ls as [|x [|x' ls]]; cbn [length] in Hn; [lia|lia|]. set (L := x :: x' :: ls) in *.
      assert (E : dims_axes f vertical (Nested L) = subplots f (if vertical then length L else 1%nat) (if vertical then 1%nat else length L)).
      { rewrite subplots_many by (cbn; lia). reflexivity. }
      rewrite E. reflexivity.
  - rewrite single_axes by assumption. reflexivity.
Qed.

Section Made.
Variables (mp : mpo Rnum) (sc : bool) (plots : list (list nat)) (w : nat -> nat -> R) (y : nat -> utraj) (po : post (N := Rnum)).
Hypothesis Hmade : made_by_mpopt mp sc plots w y po \/ made_by_adaptive mp sc plots w y po.
Local Notation o := (mp_ocp mp).
Theorem plot_x_thm d phases vertical interpolate fmt (s : canvas) : phases_ok mp (asked plots phases) -> dims_fit (o_nx o) (dims_or d (o_nx o)) ->
  exists rs p, mapM (c_roots (mp_cf mp)) (mp_orders mp) = Ok rs /\
    (if (interpolate : bool) then interpolated_data mp rs sc w y (asked plots phases) p (default_grid mp) else nodal_data mp rs sc w y (asked plots phases) p) /\
    let f := S (cs_figs s) in let d' := dims_or d (o_nx o) in
    plot_x po (o_nx o) d phases vertical interpolate None None (Some (repeat fmt 15)) s =
      (Canvas (N := Rnum) f (cs_curves s ++ dims_curves f vertical (pd_x p) (pd_t p) fmt (Some "state"%string) d'), Ok (Some f, dims_axes f vertical d')).
Proof.
  intros Hph Hd. destruct (both_data mp sc plots w y po Hmade phases Hph) as (rs & dn & di & Er & Hn & Hi & En & Ei).
  exists rs, (if interpolate then di else dn). split; [exact Er|]. split; [destruct interpolate; assumption|]. intros f d'. unfold plot_x, dbind, dlift.
  assert (E : get_data po phases interpolate = Ok (if interpolate then di else dn)) by (destruct interpolate; assumption). rewrite E.
  apply single_new; destruct interpolate.
  - destruct Hi as (A & B & C & D' & F & _). congruence.
  - destruct Hn as (A & B & C & D' & F & _). congruence.
  - destruct Hi as (A & B & _). rewrite B. exact Hd.
  - destruct Hn as (A & B & _). rewrite B. exact Hd.
Qed.
Theorem plot_u_thm d phases vertical interpolate fmt name (s : canvas) : phases_ok mp (asked plots phases) -> dims_fit (o_nu o) (dims_or d (o_nu o)) ->
  exists rs dn di, mapM (c_roots (mp_cf mp)) (mp_orders mp) = Ok rs /\
    interpolated_data mp rs sc w y (asked plots phases) di (default_grid mp) /\ nodal_data mp rs sc w y (asked plots phases) dn /\
    let f := S (cs_figs s) in let d' := dims_or d (o_nu o) in
    plot_u po (o_nu o) d phases vertical interpolate None None (Some (repeat fmt 15)) name s =
      (Canvas (N := Rnum) f (cs_curves s ++ (if (interpolate : bool)
         then dims_curves f vertical (pd_u dn) (pd_t dn) fmt name d' ++ dims_curves f vertical (pd_u di) (pd_t di) "-" None d'
         else dims_curves f vertical (pd_u dn) (pd_t dn) "-" None d')), Ok (Some f, dims_axes f vertical d')).
Proof.
  intros Hph Hd. destruct (both_data mp sc plots w y po Hmade phases Hph) as (rs & dn & di & Er & Hn & Hi & En & Ei).
  exists rs, dn, di. split; [exact Er|]. split; [exact Hi|]. split; [exact Hn|]. intros f d'.
  assert (Hd1 : dims_fit (nc (pd_u dn)) d') by (destruct Hn as (A & B & C & D' & F & _); rewrite D'; exact Hd).
  assert (Hd2 : dims_fit (nc (pd_u di)) d') by (destruct Hi as (A & B & C & D' & F & _); rewrite D'; exact Hd).
  assert (Hl1 : length (pd_t dn) = nr (pd_u dn)) by (destruct Hn as (A & B & C & D' & F & _); congruence).
  assert (Hl2 : length (pd_t di) = nr (pd_u di)) by (destruct Hi as (A & B & C & D' & F & _); congruence).
  unfold plot_u. fold d'. destruct interpolate.
  - unfold dbind at 1. unfold dbind at 1, dlift at 1. rewrite En. unfold dbind at 1. rewrite single_new by assumption. unfold dret at 1. cbn [fst snd].
    unfold dbind, dlift. rewrite Ei. unfold solid. rewrite single_axes by assumption. unfold plus. cbn [cs_figs cs_curves]. rewrite <- app_assoc. reflexivity.
  - unfold dbind at 1, dret at 1. unfold dbind, dlift. rewrite En. cbn [fst snd]. unfold solid. apply single_new; assumption.
Qed.
(** the figure and axes of an earlier plot given back: new curves are added to them.  Without the figure the axes
    serve only when there is one axes object; without the axes the figure is no use *)
Theorem plot_x_again d phases vertical interpolate fmt f (s : canvas) : phases_ok mp (asked plots phases) -> dims_fit (o_nx o) (dims_or d (o_nx o)) ->
  let d' := dims_or d (o_nx o) in
  exists rs p, mapM (c_roots (mp_cf mp)) (mp_orders mp) = Ok rs /\
    (if (interpolate : bool) then interpolated_data mp rs sc w y (asked plots phases) p (default_grid mp) else nodal_data mp rs sc w y (asked plots phases) p) /\
    let drawn := Canvas (N := Rnum) (cs_figs s) (cs_curves s ++ dims_curves f vertical (pd_x p) (pd_t p) fmt (Some "state"%string) d') in
    plot_x po (o_nx o) d phases vertical interpolate (Some f) (Some (dims_axes f vertical d')) (Some (repeat fmt 15)) s = (drawn, Ok (Some f, dims_axes f vertical d')) /\
    plot_x po (o_nx o) d phases vertical interpolate None (Some (dims_axes f vertical d')) (Some (repeat fmt 15)) s =
      (match d' with Flat _ => (drawn, Ok (None, dims_axes f vertical d')) | Nested _ => (s, Raise ValueError) end) /\
    plot_x po (o_nx o) d phases vertical interpolate (Some f) None (Some (repeat fmt 15)) s = (s, Raise TypeError).
Proof.
  intros Hph Hd d'. destruct (both_data mp sc plots w y po Hmade phases Hph) as (rs & dn & di & Er & Hn & Hi & En & Ei).
  exists rs, (if interpolate then di else dn). split; [exact Er|]. split; [destruct interpolate; assumption|]. intros drawn. unfold plot_x, dbind, dlift.
  assert (E : get_data po phases interpolate = Ok (if interpolate then di else dn)) by (destruct interpolate; assumption). rewrite !E. fold d'. fold d' in Hd.
  set (p := if interpolate then di else dn) in *.
  assert (L : length (pd_t p) = nr (pd_x p) /\ dims_fit (nc (pd_x p)) d').
  { unfold p. destruct interpolate.
    - destruct Hi as (A & B & C & D' & F & _). split; [congruence|rewrite B; exact Hd].
    - destruct Hn as (A & B & C & D' & F & _). split; [congruence|rewrite B; exact Hd]. }
  destruct L as [L1 L2]. pose proof (single_axes (pd_x p) (pd_t p) d' (Some "state"%string) vertical f fmt s L1 L2) as S1.
  split; [exact S1|]. clearbody d' p. destruct d' as [l|ls]; cbn [dims_fit] in Hd.
  - destruct Hd as [Hne _]. destruct l as [|x l]; [congruence|]. split; [|reflexivity].
    unfold plot_single_variable in *. unfold dbind at 1, dlift at 1 in S1. unfold dbind at 1, dlift at 1. unfold axes_or in *. unfold dbind at 1, dret at 1 in S1. cbn [dims_axes snd] in *.
    unfold dbind at 1, dret at 1. cbn [snd]. unfold dbind at 1 in S1. unfold dbind at 1.
    match type of S1 with match ?e with _ => _ end = _ => destruct e as [s1 [r|?]] end; inversion S1; subst; reflexivity.
  - destruct Hd as [Hne _]. destruct ls as [|x ls]; [cbn in Hne; lia|]. split; reflexivity.
Qed.
(** a single list inside a list: all its dimensions have one label and the first style *)
Theorem plot_x_nested phases interpolate l (s : canvas) : phases_ok mp (asked plots phases) -> (forall j, In j l -> (j < o_nx o)%nat) ->
  exists d, get_data po phases interpolate = Ok d /\ let f := S (cs_figs s) in forall vertical fmt rest,
  plot_x po (o_nx o) (Some (Nested [l])) phases vertical interpolate None None (Some (fmt :: rest)) s =
    (Canvas (N := Rnum) f (cs_curves s ++ map (fun j => Curve (N := Rnum) (Axis f 1 1 1) (pd_t d) (map (fun r => mget (pd_x d) r j) (seq 0 (nr (pd_x d)))) fmt
       (Some ("state " ++ show_list l)%string)) l), Ok (Some f, AxOne (Axis f 1 1 1))).
Proof.
  intros Hph Hl. destruct (both_data mp sc plots w y po Hmade phases Hph) as (rs & dn & di & Er & Hn & Hi & En & Ei).
  exists (if (interpolate : bool) then di else dn). assert (E : get_data po phases interpolate = Ok (if interpolate then di else dn)) by (destruct interpolate; assumption).
  split; [exact E|]. intros f vertical fmt rest. unfold plot_x, dbind, dlift. rewrite E. cbn [dims_or].
  set (d := if interpolate then di else dn) in *.
  assert (Hc : nc (pd_x d) = o_nx o /\ length (pd_t d) = nr (pd_x d)).
  { unfold d. destruct interpolate; [destruct Hi as (A & B & C & D' & F & _)|destruct Hn as (A & B & C & D' & F & _)]; split; congruence. }
  destruct Hc as [Hc Ht]. unfold plot_single_variable, axes_or, dbind at 1, dlift at 1. unfold dbind at 1. unfold dbind at 1, figure, dret at 1.
  cbn [snd length cs_figs cs_curves]. fold f. replace (subplots f (if vertical then 1 else 1) (if vertical then 1 else 1)) with (AxOne (Axis f 1 1 1)) by (destruct vertical; reflexivity).
  unfold dbind at 1. unfold dbind at 1, dlift at 1. cbn [the_axis]. unfold plot_together. unfold dbind at 1, dlift at 1. rewrite columns_ok by (rewrite Hc; exact Hl).
  unfold dbind at 1, dlift at 1. unfold tics_or, at_. cbn [nth_error nc].
  assert (K : forall n b (s0 : canvas), each (seq b n) (fun i => draw (Axis f 1 1 1) (pd_t d)
      (mcolumn (Mat (N := Rnum) (nr (pd_x d)) (length l) (fun i j => mget (pd_x d) i (nth j l 0%nat))) i) fmt (label_of (Some "state"%string) (show_list l))) s0 =
    (plus s0 (map (fun i => Curve (N := Rnum) (Axis f 1 1 1) (pd_t d) (map (fun r => mget (pd_x d) r (nth i l 0%nat)) (seq 0 (nr (pd_x d)))) fmt
       (Some ("state " ++ show_list l)%string)) (seq b n)), Ok tt)).
  { induction n as [|n IH]; intros b s0; cbn [seq each map]; [now rewrite plus_nil|]. unfold dbind. rewrite draw_ok by exact Ht. rewrite IH, plus_plus. reflexivity. }
  rewrite K. unfold plus, dret. cbn [cs_figs cs_curves]. f_equal. f_equal. f_equal.
  clear. generalize (pd_x d) (pd_t d) (Some ("state " ++ show_list l)%string). intros m t lab. induction l as [|x l IH]; [reflexivity|]. cbn [length seq map nth]. f_equal. rewrite <- seq_shift, map_map. exact IH.
Qed.
(** a list of styles: curve number i has style number i *)
Theorem plot_x_styles phases interpolate l tics (s : canvas) : phases_ok mp (asked plots phases) -> l <> [] -> (forall j, In j l -> (j < o_nx o)%nat) -> (length l <= length tics)%nat ->
  exists d, get_data po phases interpolate = Ok d /\ let f := S (cs_figs s) in forall vertical,
  plot_x po (o_nx o) (Some (Flat l)) phases vertical interpolate None None (Some tics) s =
    (Canvas (N := Rnum) f (cs_curves s ++ map (fun i => Curve (N := Rnum) (Axis f 1 1 1) (pd_t d) (map (fun r => mget (pd_x d) r (nth i l 0%nat)) (seq 0 (nr (pd_x d)))) (nth i tics ""%string)
       (Some ("state " ++ show (nth i l 0%nat))%string)) (seq 0 (length l))), Ok (Some f, AxOne (Axis f 1 1 1))).
Proof.
  intros Hph Hne Hl Hlt. destruct (both_data mp sc plots w y po Hmade phases Hph) as (rs & dn & di & Er & Hn & Hi & En & Ei).
  exists (if (interpolate : bool) then di else dn). assert (E : get_data po phases interpolate = Ok (if interpolate then di else dn)) by (destruct interpolate; assumption).
  split; [exact E|]. intros f vertical. unfold plot_x, dbind, dlift. rewrite E.
  set (d := if interpolate then di else dn) in *.
  assert (Hc : nc (pd_x d) = o_nx o /\ length (pd_t d) = nr (pd_x d)).
  { unfold d. destruct interpolate; [destruct Hi as (A & B & C & D' & F & _)|destruct Hn as (A & B & C & D' & F & _)]; split; congruence. }
  destruct Hc as [Hc Ht]. destruct l as [|x l]; [congruence|]. change (dims_or (Some (Flat (x :: l))) (o_nx o)) with (Flat (x :: l)).
  unfold plot_single_variable, axes_or, dbind at 1, dlift at 1. unfold dbind at 1. unfold dbind at 1, figure, dret at 1.
  cbn [snd cs_figs cs_curves]. fold f. replace (subplots f (if vertical then 1 else 1) (if vertical then 1 else 1)) with (AxOne (Axis f 1 1 1)) by (destruct vertical; reflexivity).
  unfold dbind at 1. unfold dbind at 1, dlift at 1. cbn [the_axis tics_or]. unfold dbind at 1, dlift at 1. rewrite columns_ok by (rewrite Hc; exact Hl).
  rewrite plot_curve_ok; [|exact Ht|exact Hlt|cbn [nc]; rewrite map_length; lia]. unfold plus, dret. cbn [cs_figs cs_curves nr nc]. f_equal. f_equal. f_equal.
  apply map_ext_in. intros i Hi'. apply in_seq in Hi'. unfold one, index_of. cbn [nr nc mget]. f_equal. rewrite (nth_indep _ _ (show 0)) by (rewrite map_length; lia). rewrite map_nth. reflexivity.
Qed.
End Made.

(** ** residuals of the dynamics of a solution *)
Lemma Forall2_nth_intro {A B} (P : A -> B -> Prop) da db l : forall m, length l = length m ->
  (forall i, (i < length l)%nat -> P (nth i l da) (nth i m db)) -> Forall2 P l m.
Proof.
  induction l as [|x l IH]; intros [|x' m] L H; try discriminate L; constructor.
  - apply (H 0%nat). cbn. lia.
  - apply IH; [now inversion L|]. intros i Hi. apply (H (S i)). cbn. lia.
Qed.
Section Solution.
Variables (rc : rcfg) (mp : mpo Rnum) (npath nterm : nat -> option nat) (z p : list R) (g : string) (G : nat -> list (list R)).
Hypotheses (Hin : input_ok mp npath nterm z p) (Hg : nth_error (r_grid rc) 0 = Some g).
Local Notation o := (mp_ocp mp).
Hypothesis HG : forall ph, (ph < o_nph o)%nat -> residual_grid rc mp p ph (Some g) = Ok (Some (G ph)) /\ length (G ph) = length (mp_orders mp) /\ concat (G ph) <> [].
Theorem solution_errors : exists ts rs, dynamics_residuals rc mp p z None None false = Ok (ts, rs) /\ error_data (o_nx o) ts rs /\
  length ts = o_nph o /\ forall ph, (ph < o_nph o)%nat -> map (@length R) (nth ph ts []) = map (@length R) (G ph).
Proof.
  set (nodes := map G (seq 0 (o_nph o))).
  assert (Ln : length nodes = o_nph o) by (unfold nodes; now rewrite map_length, seq_length).
  assert (Nn : forall ph, (ph < o_nph o)%nat -> nth ph nodes [] = G ph).
  { intros ph Hph. unfold nodes. rewrite (nth_indep _ _ (G 0%nat)) by (rewrite map_length, seq_length; lia). rewrite map_nth, seq_nth by lia. reflexivity. }
  destruct (residuals_all rc mp npath nterm z p nodes None Hin Ln) as (roots & ts & rs & Er & E & Lt & Lr & H).
  { intros taus Ht. unfold nodes in Ht. apply in_map_iff in Ht. destruct Ht as (ph & <- & Hph). apply in_seq in Hph. apply HG. lia. }
  exists ts, rs. 
  assert (E0 : dynamics_residuals rc mp p z None None false = Ok (ts, rs)) by (rewrite <- E; apply (residuals_one_grid rc mp p z None false g G Hg); intros ph Hph; apply HG; exact Hph).
  clear E. rename E0 into E. split; [exact E|].
  assert (S : forall ph, (ph < o_nph o)%nat -> length (nth ph ts []) = length (G ph) /\ length (nth ph rs []) = length (G ph) /\
    forall k pts, nth_error (G ph) k = Some pts -> exists t r, nth_error (nth ph ts []) k = Some t /\ nth_error (nth ph rs []) k = Some r /\ length t = length pts /\
      match pts with [] => r = None | _ => exists m, r = Some m /\ length m = length pts /\ forall row, In row m -> length row = o_nx o end).
  { intros ph Hph. destruct (H ph Hph) as (A & B & C & D'). destruct (HG ph Hph) as (_ & LG & _). rewrite Nn in D' by exact Hph. split; [congruence|]. split; [congruence|].
    intros k pts Ek. assert (Hk : (k < length (mp_orders mp))%nat) by (rewrite <- LG; apply nth_error_Some; rewrite Ek; discriminate).
    destruct (C k Hk) as (cx & cu & Hc). destruct (D' k pts cx cu Ek Hc) as (E1 & E2). eexists _, _. split; [exact E1|]. split; [exact E2|].
    split; [apply map_length|]. destruct pts as [|x pts]; [reflexivity|]. eexists. split; [reflexivity|]. unfold state_rows. rewrite map_length. split; [reflexivity|].
    intros row Hrow. apply in_map_iff in Hrow. destruct Hrow as (tau & <- & _). unfold vec. now rewrite map_length, seq_length. }
  assert (Inn : forall {A} (l : list (list A)) q, In q l -> length l = o_nph o -> exists ph, (ph < o_nph o)%nat /\ q = nth ph l []).
  { intros A l q Hq Ll. apply In_nth with (d := []) in Hq. destruct Hq as (ph & Hph & <-). exists ph. split; [lia|reflexivity]. }
  assert (Seg : forall ph r, (ph < o_nph o)%nat -> In r (nth ph rs []) -> exists k pts, nth_error (G ph) k = Some pts /\ nth_error (nth ph rs []) k = Some r).
  { intros ph r Hph Hr. destruct (S ph Hph) as (_ & B & _). apply In_nth_error in Hr. destruct Hr as (k & Ek).
    assert (Hk : (k < length (G ph))%nat) by (rewrite <- B; apply nth_error_Some; rewrite Ek; discriminate).
    exists k. destruct (nth_error (G ph) k) as [pts|] eqn:Ep; [|apply nth_error_None in Ep; lia]. eauto. }
  assert (Hnph : (0 < o_nph o)%nat) by (pose proof (sh_nph _ (ok_shapes _ _ _ (in_ocp _ _ _ _ _ Hin))); lia).
  split; [|split; [exact Lt|]].
  - split; [|split; [|split; [|split]]].
    + intros ->. cbn in Lt. lia.
    + intros q Hq. destruct (Inn _ ts q Hq Lt) as (ph & Hph & ->). destruct (S ph Hph) as (A & _). destruct (HG ph Hph) as (_ & _ & Hne).
      intros C. rewrite C in A. cbn in A. symmetry in A. apply length_zero_iff_nil in A. rewrite A in Hne. now apply Hne.
    + apply Forall2_nth_intro with (da := []) (db := []); [exact (eq_trans Lt (eq_sym Lr))|]. intros ph Hph. nred. rewrite Lt in Hph. destruct (S ph Hph) as (A & B & K).
      apply Forall2_nth_intro with (da := []) (db := None); [exact (eq_trans A (eq_sym B))|]. intros k Hk. nred. rewrite A in Hk.
      destruct (nth_error (G ph) k) as [pts|] eqn:Ep; [|apply nth_error_None in Ep; lia].
      destruct (K k pts Ep) as (t & r & E1 & E2 & E3 & E4). 
      match goal with |- context [nth k ?l None] => replace (nth k l None) with r by (symmetry; exact (nth_error_nth _ _ None E2)) end.
      rewrite (nth_error_nth _ _ [] E1), E3.
      destruct pts as [|x pts]; [rewrite E4; reflexivity|]. destruct E4 as (m & -> & Em & _). symmetry. exact Em.
    + intros q Hq. destruct (Inn _ rs q Hq Lr) as (ph & Hph & ->). destruct (S ph Hph) as (A & B & K). destruct (HG ph Hph) as (_ & _ & Hne).
      destruct (concat (G ph)) as [|x c] eqn:Ec; [congruence|]. assert (Hx : In x (concat (G ph))) by (rewrite Ec; now left).
      apply in_concat in Hx. destruct Hx as (pts & Hp & Hx). apply In_nth_error in Hp. destruct Hp as (k & Ek). destruct (K k pts Ek) as (t & r & E1 & E2 & E3 & E4).
      destruct pts as [|x' pts]; [destruct Hx|]. destruct E4 as (m & -> & Em & _). destruct m as [|row m]; [discriminate Em|].
      exists (row :: m), row. split; [eapply nth_error_In; exact E2|now left].
    + intros q m row Hq Hm Hrow. destruct (Inn _ rs q Hq Lr) as (ph & Hph & ->). destruct (Seg ph (Some m) Hph Hm) as (k & pts & Ek & Er').
      destruct (S ph Hph) as (A & B & K). destruct (K k pts Ek) as (t & r & E1 & E2 & E3 & E4). assert (r = Some m) by congruence. subst r.
      destruct pts as [|x pts]; [discriminate E4|]. destruct E4 as (m' & Em & _ & Hr). assert (m' = m) by congruence. subst m'. auto.
  - intros ph Hph. destruct (S ph Hph) as (A & B & K). apply nth_ext with (d := 0%nat) (d' := 0%nat); [rewrite !map_length; exact A|].
    intros k Hk. rewrite map_length in Hk. assert (Hk' : (k < length (G ph))%nat) by (rewrite <- A; exact Hk). clear Hk. change 0%nat with (length (@nil R)). rewrite !map_nth.
    destruct (nth_error (G ph) k) as [pts|] eqn:Ep; [|apply nth_error_None in Ep; lia].
    destruct (K k pts Ep) as (t & r & E1 & E2 & E3 & E4). pose proof (nth_error_nth _ _ [] E1) as Q1. pose proof (nth_error_nth _ _ [] Ep) as Q2.
    exact (eq_trans (f_equal (@length R) Q1) (eq_trans E3 (eq_sym (f_equal (@length R) Q2)))).
Qed.
End Solution.

(** phases with the same numbers of times are alike *)
Lemma same_alike (ts : list (list (list R))) lens : (forall q, In q ts -> map (@length R) q = lens) -> alike ts.
Proof.
  intros H.
  assert (L : forall m q, In q ts -> (level m q <-> forall n, In n lens -> n = m)).
  { intros m q Hq. rewrite <- (H q Hq). unfold level. split.
    - intros K n Hn. apply in_map_iff in Hn. destruct Hn as (t & <- & Ht). auto.
    - intros K t Ht. apply K. apply in_map. exact Ht. }
  assert (D' : (exists m, forall n, In n lens -> n = m) \/ ~ (exists m, forall n, In n lens -> n = m)).
  { destruct lens as [|n0 l]; [left; exists 0%nat; intros ? []|]. destruct (Forall_dec (fun n => n = n0) (fun n => Nat.eq_dec n n0) l) as [F|F].
    - left. exists n0. intros n [<-|Hn]; [reflexivity|]. rewrite Forall_forall in F. auto.
    - right. intros (m & K). apply F. apply Forall_forall. intros n Hn. rewrite (K n) by (now right). symmetry. apply K. now left. }
  destruct D' as [(m & K)|K].
  - left. exists m. intros q Hq. apply (L m q Hq). exact K.
  - right. intros q Hq m Hl. apply K. exists m. apply (L m q Hq). exact Hl.
Qed.
(** with residuals at mid-points or spectral points the plots always succeed *)
Theorem solution_alike rc mp npath nterm z p g : input_ok mp npath nterm z p -> nth_error (r_grid rc) 0 = Some g ->
  (g = "mid-points" \/ g = "spectral")%string ->
  exists ts rs, dynamics_residuals rc mp p z None None false = Ok (ts, rs) /\ error_data (o_nx (mp_ocp mp)) ts rs /\ alike ts.
Proof.
  intros Hin Hg Hgg. pose proof (in_mpo _ _ _ _ _ Hin) as Hmp.
  assert (K : exists lens (G : nat -> list (list R)), forall ph, (ph < o_nph (mp_ocp mp))%nat -> residual_grid rc mp p ph (Some g) = Ok (Some (G ph)) /\ length (G ph) = length (mp_orders mp) /\
    concat (G ph) <> [] /\ map (@length R) (G ph) = lens).
  { assert (Hq : exists q qs, mp_orders mp = q :: qs /\ (1 <= q)%nat).
    { pose proof (mo_len _ Hmp) as L. pose proof (mo_nseg _ Hmp). destruct (mp_orders mp) as [|q qs] eqn:Eo; [cbn in L; lia|]. exists q, qs. split; [reflexivity|].
      apply (mo_pos _ Hmp). rewrite Eo. now left. }
    destruct Hq as (q & qs & Eq & Hq).
    assert (Ne : forall (G : list (list R)) n l, map (@length R) G = n :: l -> (1 <= n)%nat -> concat G <> []).
    { intros [|[|x a] G] n l E Hn; try discriminate E; cbn in E; inversion E; subst; [lia|]. discriminate. }
    destruct Hgg as [Eg|Eg]; subst g.
    - exists (mp_orders mp). exists (fun ph => match residual_grid rc mp p ph (Some "mid-points"%string) with Ok (Some t) => t | _ => [] end).
      intros ph Hph. destruct (mid_grid_thm rc mp p ph Hmp) as (t & E & L & _). rewrite E. split; [reflexivity|]. split; [rewrite <- L; symmetry; apply map_length|].
      split; [|exact L]. rewrite Eq in L. exact (Ne t q qs L Hq).
    - exists (map (fun _ => S (r_points rc)) (mp_orders mp)). exists (fun ph => match residual_grid rc mp p ph (Some "spectral"%string) with Ok (Some t) => t | _ => [] end).
      intros ph Hph. destruct (spectral_grid_thm rc mp p ph Hmp) as (t & E & L & _). rewrite E. split; [reflexivity|].
      split; [rewrite <- (map_length (@length R) t), L; apply map_length|]. split; [|exact L]. rewrite Eq in L. cbn [map] in L. apply (Ne t _ _ L). lia. }
  destruct K as (lens & G & K). destruct (solution_errors rc mp npath nterm z p g G Hin Hg) as (ts & rs & E & He & Lt & HL).
  { intros ph Hph. destruct (K ph Hph) as (A & B & C & _). auto. }
  exists ts, rs. split; [exact E|]. split; [exact He|]. apply (same_alike ts lens). intros q Hq. apply In_nth with (d := []) in Hq. destruct Hq as (ph & Hph & <-).
  assert (Hph' : (ph < o_nph (mp_ocp mp))%nat) by (rewrite <- Lt; exact Hph). destruct (K ph Hph') as (_ & _ & _ & KL). exact (eq_trans (HL ph Hph') KL).
Qed.
Theorem solution_plot rc mp npath nterm z p plots sc g po phases interpolate fmt name fig axs (s : canvas) :
  input_ok mp npath nterm z p -> nth_error (r_grid rc) 0 = Some g -> (g = "mid-points" \/ g = "spectral")%string ->
  process_results rc mp plots p z sc false true = Ok po -> phases_ok mp (asked plots (wanted phases)) ->
  (o_nx (mp_ocp mp) <= 15)%nat -> (o_nu (mp_ocp mp) <= 15)%nat ->
  exists ts rs roots dn di, dynamics_residuals rc mp p z None None false = Ok (ts, rs) /\ mapM (c_roots (mp_cf mp)) (mp_orders mp) = Ok roots /\
    nodal_data mp roots sc (width mp p) (user_traj mp z) (asked plots (wanted phases)) dn /\
    interpolated_data mp roots sc (width mp p) (user_traj mp z) (asked plots (wanted phases)) di (default_grid mp) /\
    let f := S (cs_figs s) in let a0 := Axis f 2 2 1 in let a1 := Axis f 2 2 3 in let a2 := Axis f 1 2 2 in
    plot_phases po phases interpolate true fig axs (repeat fmt 15) name s =
      (Canvas (N := Rnum) f (cs_curves s ++ phase_curves a0 a1 interpolate di dn fmt name ++
         error_curves a2 ts rs (o_nx (mp_ocp mp)) "dx" (if interpolate then "." else fmt)), Ok (Some f, AxMany [a0; a1; a2])).
Proof.
  intros Hin Hg Hgg E Hph Hx Hu. destruct (solution_alike rc mp npath nterm z p g Hin Hg Hgg) as (ts & rs & Ed & He & Ha).
  destruct (residuals_thm rc mp (trajectories mp) plots p z sc false po E) as (r & dx & Er & Ed' & Edx & Ex).
  assert (dx = (ts, rs)) by congruence. subst dx. destruct r as [rx rdx]. cbn [rd_x rd_dx] in Ex, Edx. subst rx rdx.
  assert (Hm : made_by_mpopt mp sc plots (width mp p) (user_traj mp z) po) by (exists rc, npath, nterm, z, p, false, true; auto).
  destruct (plot_dynamics_thm mp sc plots _ _ po (or_introl Hm) phases interpolate fmt name Hph Hx Hu ts rs fig axs s Er He) as (roots & dn & di & A & B & C & D' & _).
  exists ts, rs, roots, dn, di. split; [exact Ed|]. split; [exact A|]. split; [exact B|]. split; [exact C|]. exact (D' Ha).
Qed.
Theorem phase_plot rc mp npath nterm z p plots sc g po ph interpolate fig axs (s : canvas) :
  input_ok mp npath nterm z p -> nth_error (r_grid rc) 0 = Some g -> (g = "mid-points" \/ g = "spectral")%string ->
  process_results rc mp plots p z sc false true = Ok po -> (ph < o_nph (mp_ocp mp))%nat ->
  (o_nx (mp_ocp mp) <= 15)%nat -> (o_nu (mp_ocp mp) <= 15)%nat ->
  exists ts rs roots dn di, dynamics_residuals rc mp p z None None false = Ok (ts, rs) /\ mapM (c_roots (mp_cf mp)) (mp_orders mp) = Ok roots /\
    nodal_data mp roots sc (width mp p) (user_traj mp z) [ph] dn /\
    interpolated_data mp roots sc (width mp p) (user_traj mp z) [ph] di (default_grid mp) /\
    let f := S (cs_figs s) in let a0 := Axis f 2 2 1 in let a1 := Axis f 2 2 3 in let a2 := Axis f 1 2 2 in
    plot_phase po ph interpolate fig axs s =
      (Canvas (N := Rnum) f (cs_curves s ++ phase_curves a0 a1 interpolate di dn "-" "" ++
         error_curves a2 ts rs (o_nx (mp_ocp mp)) "dx" (if interpolate then "." else "-")), Ok tt).
Proof.
  intros Hin Hg Hgg E Hph Hx Hu.
  destruct (solution_plot rc mp npath nterm z p plots sc g po (Some [ph]) interpolate "-" "" fig axs s Hin Hg Hgg E) as (ts & rs & roots & dn & di & A & B & C & D' & F).
  { split; [discriminate|]. intros q [<-|[]]. exact Hph. }
  { exact Hx. } { exact Hu. }
  exists ts, rs, roots, dn, di. split; [exact A|]. split; [exact B|]. split; [exact C|]. split; [exact D'|].
  unfold plot_phase, dbind at 1. change solid with (repeat "-"%string 15). rewrite F. reflexivity.
Qed.
(** a segment without residuals of the states: ValueError, once the data are drawn *)
Lemma all_some_none {A} (l : list (option A)) : In None l -> all_some l = None.
Proof. induction l as [|[x|] l IH]; cbn; [tauto| |reflexivity]. intros [C|H]; [discriminate|]. now rewrite IH. Qed.
Lemma join_missing (ts : list (list (option (list R)))) q : In q ts -> In None q -> join_times (N := Rnum) ts = Raise ValueError.
Proof.
  intros Hq Hn. unfold join_times. destruct ts as [|p ts]; [reflexivity|]. destruct (forallb _ _); [|reflexivity].
  rewrite all_some_none; [reflexivity|]. apply in_concat. eauto.
Qed.
Theorem missing_thm mp sc plots w y po phases interpolate fmt name fig axs (s : canvas) rx rdx q :
  made_by_mpopt mp sc plots w y po \/ made_by_adaptive mp sc plots w y po -> phases_ok mp (asked plots (wanted phases)) ->
  (o_nx (mp_ocp mp) <= 15)%nat -> (o_nu (mp_ocp mp) <= 15)%nat ->
  po_resid po = Some (Resid_data (N := Rnum) (Some rx) rdx) -> In q rx -> In None q ->
  exists roots dn di, mapM (c_roots (mp_cf mp)) (mp_orders mp) = Ok roots /\
    nodal_data mp roots sc w y (asked plots (wanted phases)) dn /\ interpolated_data mp roots sc w y (asked plots (wanted phases)) di (default_grid mp) /\
    let f := S (cs_figs s) in
    plot_phases po phases interpolate true fig axs (repeat fmt 15) name s =
      (Canvas (N := Rnum) f (cs_curves s ++ phase_curves (Axis f 2 2 1) (Axis f 2 2 3) interpolate di dn fmt name), Raise ValueError).
Proof.
  intros Hm Hph Hx Hu Hr Hq Hn. destruct (small_data mp sc plots w y po Hm phases interpolate Hph Hx Hu) as (roots & dn & di & A & B & C & Ei & En & Hd).
  exists roots, dn, di. split; [exact A|]. split; [exact B|]. split; [exact C|]. intros f. rewrite phases_split, Hr. cbv zeta.
  rewrite (data_part_ok po _ interpolate di dn _ _ _ fmt name _ Ei En Hd). cbv beta iota. unfold resid_part. cbn [rd_x rd_dx].
  assert (J : join_times (N := Rnum) (states_times rx) = Raise ValueError).
  { apply (join_missing _ (map (option_map (@ss_t Rnum)) q)); [unfold states_times; apply in_map; exact Hq|].
    apply in_map_iff. exists None. auto. }
  destruct rdx as [[tdx rdx]|]; unfold plot_errors, dbind, dlift; rewrite J; reflexivity.
Qed.

(** ** residuals of the states of a solution *)
Definition present_of {A} (l : list (option A)) : list A := flat_map (fun x => match x with Some a => [a] | None => [] end) l.
Lemma present_map {A} (l : list A) : present_of (map Some l) = l.
Proof. induction l as [|a l IH]; [reflexivity|]. change (a :: present_of (map Some l) = a :: l). now rewrite IH. Qed.
Lemma present_some {A} (l : list (option A)) : (forall k, (k < length l)%nat -> exists a, nth_error l k = Some (Some a)) -> map Some (present_of l) = l.
Proof.
  induction l as [|x l IH]; intros H; [reflexivity|]. destruct (H 0%nat ltac:(cbn; lia)) as (a & E). cbn in E. assert (x = Some a) by congruence. subst x.
  cbn. f_equal. apply IH. intros k Hk. apply (H (S k)). cbn. lia.
Qed.
Lemma known_grid rc mp g p : mpo_ok mp -> (g = "mid-points" \/ g = "spectral")%string -> exists lens (G : nat -> list (list R)), (exists n l, lens = n :: l) /\ (forall n, In n lens -> (1 <= n)%nat) /\
  forall ph, residual_grid rc mp p ph (Some g) = Ok (Some (G ph)) /\ length (G ph) = length (mp_orders mp) /\ map (@length R) (G ph) = lens.
Proof.
  intros Hmp Hg.
  assert (Hq : exists q qs, mp_orders mp = q :: qs).
  { pose proof (mo_len _ Hmp) as L. pose proof (mo_nseg _ Hmp). destruct (mp_orders mp) as [|q qs]; [cbn in L; lia|]. exists q, qs. reflexivity. }
  destruct Hq as (q & qs & Eq). destruct Hg as [Eg|Eg]; subst g.
  - exists (mp_orders mp), (fun ph => match residual_grid rc mp p ph (Some "mid-points"%string) with Ok (Some t) => t | _ => [] end). split; [exists q, qs; exact Eq|].
    split; [apply (mo_pos _ Hmp)|]. intros ph. destruct (mid_grid_thm rc mp p ph Hmp) as (t & E & L & _). rewrite E. split; [reflexivity|].
    split; [rewrite <- L; symmetry; apply map_length|exact L].
  - exists (map (fun _ => S (r_points rc)) (mp_orders mp)), (fun ph => match residual_grid rc mp p ph (Some "spectral"%string) with Ok (Some t) => t | _ => [] end).
    split; [rewrite Eq; eexists _, _; reflexivity|]. split; [intros n Hn; apply in_map_iff in Hn; destruct Hn as (? & <- & _); lia|].
    intros ph. destruct (spectral_grid_thm rc mp p ph Hmp) as (t & E & L & _). rewrite E. split; [reflexivity|].
    split; [rewrite <- (map_length (@length R) t), L; apply map_length|exact L].
Qed.
Theorem solution_states rc mp npath nterm z p g : input_ok mp npath nterm z p -> widths_ok (mp_nseg mp) (o_nph (mp_ocp mp)) p -> same_grid rc mp g ->
  (g = "mid-points" \/ g = "spectral")%string ->
  exists res segs, states_residuals rc mp p z None None false = Ok res /\ map snd res = map (map Some) segs /\
    let tx := map (map (@ss_t Rnum)) segs in let rx := map (map (fun g => Some (@ss_r Rnum g))) segs in
    error_data (o_nx (mp_ocp mp)) tx rx /\ alike tx /\
    forall ph G q, residual_grid rc mp p ph (Some g) = Ok (Some G) -> In q tx -> map (@length R) q = map (@length R) G.
Proof.
  intros Hin Hw Hs Hg. pose proof (in_mpo _ _ _ _ _ Hin) as Hmp. destruct (known_grid rc mp g p Hmp Hg) as (lens & G & (n0 & l0 & Elens) & Hpos & HG).
  assert (Hnph : (0 < o_nph (mp_ocp mp))%nat) by (pose proof (sh_nph _ (ok_shapes _ _ _ (in_ocp _ _ _ _ _ Hin))); lia).
  set (nph := o_nph (mp_ocp mp)) in *. set (nodes := map G (seq 0 nph)).
  destruct (states_all rc mp npath nterm z p nodes (seq 0 nph) Hin) as (roots & res & _ & E & Ef & H).
  { unfold nodes. now rewrite map_length, seq_length. }
  { intros taus Ht. unfold nodes in Ht. apply in_map_iff in Ht. destruct Ht as (ph & <- & Hph). apply in_seq in Hph. split; [apply HG|].
    assert (Hk : grid_known g) by (destruct Hg as [Eg|Eg]; subst g; cbn; auto).
    destruct (grid_nodup rc mp p ph g Hmp (proj2 Hw ph ltac:(lia)) Hk) as (ts & Et & _ & Hd).
    pose proof (f_equal (fun r => match r with Ok (Some t) => t | _ => [] end) (eq_trans (eq_sym Et) (proj1 (HG ph)))) as Eq. cbv beta iota in Eq. rewrite <- Eq. exact Hd. }
  { intros ph Hph. apply in_seq in Hph. fold nph. lia. }
  assert (E0 : states_residuals rc mp p z None None false = Ok res).
  { rewrite <- E. apply (states_auto rc mp p z false G). intros ph Hph. exists g. split; [apply Hs; exact Hph|apply HG]. }
  clear E. rename E0 into E.
  (* one phase *)
  assert (Ph : forall ph sg, In (ph, sg) res -> exists l, sg = map Some l /\ map (fun s => length (@ss_t Rnum s)) l = lens /\
     (forall s, In s l -> length (ss_r s) = length (ss_t s) /\ forall row, In row (ss_r s) -> length row = o_nx (mp_ocp mp))).
  { intros ph sg Hi. destruct (H ph sg Hi) as (Ls & Hc & Hq & Hn). clear H. cbv zeta in *.
    assert (Hph : (ph < nph)%nat). { assert (In ph (map fst res)) by (apply in_map_iff; exists (ph, sg); auto). rewrite Ef in H. apply in_seq in H. lia. }
    assert (Nn : nth ph nodes [] = G ph) by (unfold nodes; rewrite (nth_indep _ _ (G 0%nat)) by (rewrite map_length, seq_length; lia); rewrite map_nth, seq_nth by lia; reflexivity).
    destruct (HG ph) as (_ & LG & LL).
    assert (K : forall k, (k < length sg)%nat -> exists s, nth_error sg k = Some (Some s) /\ length (ss_t s) = nth k lens 0%nat /\ length (ss_r s) = length (ss_t s) /\
       forall row, In row (ss_r s) -> length row = o_nx (mp_ocp mp)).
    { intros k Hk. rewrite Ls in Hk. destruct (nth_error (G ph) k) as [pts|] eqn:Ep; [|apply nth_error_None in Ep; lia].
      destruct (Hc k Hk) as (cx & cu & Hp). assert (Ep' : nth_error (nth ph nodes []) k = Some pts) by (rewrite Nn; exact Ep).
      destruct (Hq k pts cx cu Ep') as (cq & Hcq). pose proof (Hn k pts cx cu cq Ep' Hp Hcq) as Es.
      assert (Lp : length pts = nth k lens 0%nat).
      { rewrite <- LL. change 0%nat with (length (@nil R)). rewrite map_nth. exact (f_equal (@length R) (eq_sym (nth_error_nth _ _ [] Ep))). }
      assert (Hp1 : (1 <= length pts)%nat) by (rewrite Lp; apply Hpos, nth_In; rewrite <- LL, map_length; lia).
      destruct pts as [|x pts]; [cbn in Hp1; lia|]. eexists. split; [exact Es|]. cbn [ss_t ss_r]. unfold state_rows. rewrite !map_length. split; [exact Lp|]. split; [reflexivity|].
      intros row Hrow. apply in_map_iff in Hrow. destruct Hrow as (tau & <- & _). unfold vec. now rewrite map_length, seq_length. }
    assert (P : map Some (present_of sg) = sg) by (apply present_some; intros k Hk; destruct (K k Hk) as (s & A & _); eauto).
    exists (present_of sg). split; [symmetry; exact P|].
    assert (LP : length (present_of sg) = length sg) by (rewrite <- P at 2; symmetry; apply map_length).
    assert (KP : forall k s, nth_error (present_of sg) k = Some s -> length (ss_t s) = nth k lens 0%nat /\ length (ss_r s) = length (ss_t s) /\
       forall row, In row (ss_r s) -> length row = o_nx (mp_ocp mp)).
    { intros k s Ek. assert (Hk : (k < length sg)%nat) by (rewrite <- LP; apply nth_error_Some; rewrite Ek; discriminate).
      destruct (K k Hk) as (s' & A & B). rewrite <- P, nth_error_map, Ek in A. cbn in A. assert (s' = s) by congruence. subst s'. exact B. }
    split.
    - apply nth_ext with (d := 0%nat) (d' := 0%nat); rewrite map_length, LP, Ls; [rewrite <- LL, map_length; symmetry; exact LG|].
      intros k Hk. destruct (nth_error (present_of sg) k) as [s|] eqn:Ek; [|apply nth_error_None in Ek; lia].
      rewrite <- (proj1 (KP k s Ek)). apply nth_error_nth. rewrite nth_error_map, Ek. reflexivity.
    - intros s Hs'. apply In_nth_error in Hs'. destruct Hs' as (k & Ek). apply (KP k s Ek). }
  exists res, (map (fun r => present_of (snd r)) res). split; [exact E|].
  assert (Hsegs : forall r, In r res -> map Some (present_of (snd r)) = snd r).
  { intros [ph sg] Hr. destruct (Ph ph sg Hr) as (l & -> & _). cbn [snd]. now rewrite present_map. }
  split; [rewrite map_map; apply map_ext_in; intros r Hr; symmetry; auto|].
  assert (Ph' : forall l, In l (map (fun r => present_of (snd r)) res) -> map (fun s => length (@ss_t Rnum s)) l = lens /\
     (forall s, In s l -> length (ss_r s) = length (ss_t s) /\ forall row, In row (ss_r s) -> length row = o_nx (mp_ocp mp))).
  { intros l Hl. apply in_map_iff in Hl. destruct Hl as ([ph sg] & <- & Hr). destruct (Ph ph sg Hr) as (l & -> & A). cbn [snd].
    rewrite present_map. exact A. }
  assert (Hne : map (fun r => present_of (snd r)) res <> []).
  { intros C. apply map_eq_nil in C. rewrite C in Ef. apply (f_equal (@length nat)) in Ef. rewrite seq_length in Ef. cbn in Ef. lia. }
  set (segs := map (fun r => present_of (snd r)) res) in *. clearbody segs. intros tx rx. split; [split; [|split; [|split; [|split]]]|split].
  - unfold tx. intros C. apply map_eq_nil in C. auto.
  - intros q Hq. unfold tx in Hq. apply in_map_iff in Hq. destruct Hq as (l & <- & Hl). destruct (Ph' l Hl) as (A & _). intros C. apply map_eq_nil in C. subst l. rewrite Elens in A. discriminate A.
  - unfold tx, rx. clear - Ph'. induction segs as [|l segs IH]; cbn [map]; constructor.
    + destruct (Ph' l (or_introl eq_refl)) as (_ & B). clear - B. induction l as [|s l IH]; cbn [map]; constructor.
      * symmetry. apply B. now left.
      * apply IH. intros s' Hs'. apply B. now right.
    + apply IH. intros l' Hl'. apply Ph'. now right.
  - intros q Hq. unfold rx in Hq. apply in_map_iff in Hq. destruct Hq as (l & <- & Hl). destruct (Ph' l Hl) as (A & B). rewrite Elens in A.
    destruct l as [|s l]; [discriminate A|]. cbn [map] in A. assert (A0 : length (ss_t s) = n0) by congruence.
    destruct (B s (or_introl eq_refl)) as (B1 & _). assert (Hn0 : (1 <= n0)%nat) by (apply Hpos; rewrite Elens; now left).
    destruct (ss_r s) as [|row m] eqn:Es; [exfalso; rewrite A0 in B1; cbn in B1; lia|]. exists (ss_r s), row. rewrite Es. split; [left; now rewrite Es|now left].
  - intros q m row Hq Hm Hrow. unfold rx in Hq. apply in_map_iff in Hq. destruct Hq as (l & <- & Hl). destruct (Ph' l Hl) as (A & B).
    apply in_map_iff in Hm. destruct Hm as (s & Es & Hsl). assert (ss_r s = m) by congruence. subst m. exact (proj2 (B s Hsl) row Hrow).
  - apply (same_alike tx lens). intros q Hq. unfold tx in Hq. apply in_map_iff in Hq. destruct Hq as (l & <- & Hl). rewrite map_map. apply (Ph' l Hl).
  - intros ph G0 q EG Hq. unfold tx in Hq. apply in_map_iff in Hq. destruct Hq as (l & <- & Hl). rewrite map_map.
    pose proof (f_equal (fun r => match r with Ok (Some t) => t | _ => [] end) (eq_trans (eq_sym EG) (proj1 (HG ph)))) as Q. cbv beta iota in Q. rewrite Q.
    exact (eq_trans (proj1 (Ph' l Hl)) (eq_sym (proj2 (proj2 (HG ph))))).
Qed.
Theorem solution_plot_both rc mp npath nterm z p plots sc g po phases interpolate fmt name fig axs (s : canvas) :
  input_ok mp npath nterm z p -> widths_ok (mp_nseg mp) (o_nph (mp_ocp mp)) p -> same_grid rc mp g -> (g = "mid-points" \/ g = "spectral")%string ->
  process_results rc mp plots p z sc true true = Ok po -> phases_ok mp (asked plots (wanted phases)) ->
  (o_nx (mp_ocp mp) <= 15)%nat -> (o_nu (mp_ocp mp) <= 15)%nat ->
  exists res segs ts rs roots dn di, states_residuals rc mp p z None None false = Ok res /\ map snd res = map (map Some) segs /\
    dynamics_residuals rc mp p z None None false = Ok (ts, rs) /\ mapM (c_roots (mp_cf mp)) (mp_orders mp) = Ok roots /\
    nodal_data mp roots sc (width mp p) (user_traj mp z) (asked plots (wanted phases)) dn /\
    interpolated_data mp roots sc (width mp p) (user_traj mp z) (asked plots (wanted phases)) di (default_grid mp) /\
    let tx := map (map (@ss_t Rnum)) segs in let rx := map (map (fun g => Some (@ss_r Rnum g))) segs in
    let n := o_nx (mp_ocp mp) in let fmt' := if (interpolate : bool) then "."%string else fmt in
    let f := S (cs_figs s) in let a0 := Axis f 2 2 1 in let a1 := Axis f 2 2 3 in let a2 := Axis f 2 2 2 in let a3 := Axis f 2 2 4 in
    plot_phases po phases interpolate true fig axs (repeat fmt 15) name s =
      (Canvas (N := Rnum) f (cs_curves s ++ phase_curves a0 a1 interpolate di dn fmt name ++ error_curves a2 tx rx n "x" fmt' ++ error_curves a3 ts rs n "dx" fmt'),
       Ok (Some f, AxMany [a0; a1; a2; a3])).
Proof.
  intros Hin Hw Hs Hg E Hph Hx Hu. destruct (solution_states rc mp npath nterm z p g Hin Hw Hs Hg) as (res & segs & Es & Em & Hex & Hax & _).
  assert (Hg0 : nth_error (r_grid rc) 0 = Some g) by (apply Hs; pose proof (sh_nph _ (ok_shapes _ _ _ (in_ocp _ _ _ _ _ Hin))); lia).
  destruct (solution_alike rc mp npath nterm z p g Hin Hg0 Hg) as (ts & rs & Ed & He & Ha).
  destruct (residuals_thm rc mp (trajectories mp) plots p z sc true po E) as (r & dx & Er & Ed' & Edx & sx & Esx & Ex).
  assert (dx = (ts, rs)) by congruence. assert (sx = res) by congruence. subst dx sx. destruct r as [rx rdx]. cbn [rd_x rd_dx] in Ex, Edx. subst rx rdx.
  assert (Hm : made_by_mpopt mp sc plots (width mp p) (user_traj mp z) po) by (exists rc, npath, nterm, z, p, true, true; auto).
  rewrite Em in Er.
  destruct (plot_both_thm mp sc plots _ _ po (or_introl Hm) phases interpolate fmt name Hph Hx Hu segs ts rs fig axs s Er Hex He Hax Ha) as (roots & dn & di & A & B & C & D').
  exists res, segs, ts, rs, roots, dn, di. repeat (split; [assumption|]). exact D'.
Qed.

(** ** plot_residuals: the norms over the times, as marks and as a line *)
Lemma matching_lengths time residuals ph : present time residuals ph -> length (times time ph) = length (norms residuals ph).
Proof.
  intros (_ & _ & _ & M). unfold times, norms. unfold matching in M.
  induction M as [|x y l l' Hxy M IH]; cbn; [reflexivity|]. rewrite !app_length, IH, Hxy. destruct y; cbn; [now rewrite map_length|reflexivity].
Qed.
Lemma norms_drawn time residuals phases (t r : list R) name fmt (s : canvas) :
  sort_residual_data (N := Rnum) time residuals phases = Ok (r, map CNum t) -> length t = length r ->
  let f := S (cs_figs s) in let a := Axis f 1 1 1 in
  plot_residuals (N := Rnum) time residuals phases name None None (Some (repeat fmt 15)) s =
  (Canvas (N := Rnum) f (cs_curves s ++ [Curve (N := Rnum) a t r fmt (match name with Some x => Some (x ++ " ")%string | None => None end); Curve (N := Rnum) a t r "-" None]),
   Ok (Some f, AxOne a)).
Proof.
  intros E L f a.
  unfold plot_residuals, plot_norms, axes_or. unfold dbind at 1. unfold dbind at 1, figure, dret at 1. cbn [snd cs_figs cs_curves]. fold f.
  change (subplots f 1 1) with (AxOne a). unfold dbind at 1, dlift at 1. nred. rewrite E. cbn [snd fst].
  assert (Es : all_some (map (fun c : cell (N := Rnum) => match c with CNum x => Some x | CArr _ => None end) (map CNum t)) = Some t).
  { rewrite map_map. apply all_some_map. }
  unfold dbind at 1, dlift at 1. nred. rewrite Es. unfold dbind at 1, dlift at 1. cbn [the_axis].
  assert (Hr : map (fun i => mget (column (N := Rnum) r) i 0) (seq 0 (nr (column (N := Rnum) r))) = r).
  { unfold column. cbn [nr mget]. clear. induction r as [|x r IH]; cbn; [reflexivity|]. f_equal. rewrite <- seq_shift, map_map. exact IH. }
  unfold dbind at 1. rewrite plot_curve_ok; [|exact L|cbn; lia|cbn; lia].
  unfold dbind at 1. rewrite plot_curve_ok; [|exact L|cbn; lia|cbn; lia].
  unfold plus, dret. cbn [cs_figs cs_curves column nc seq map]. rewrite <- app_assoc. f_equal. f_equal. f_equal.
  unfold one, index_of. cbn [nth repeat tics_or solid app]. rewrite Hr. destruct name; reflexivity.
Qed.
Lemma norms_refused time residuals phases e name fmt (s : canvas) :
  sort_residual_data (N := Rnum) time residuals phases = Raise e ->
  plot_residuals (N := Rnum) time residuals phases name None None fmt s = (Canvas (N := Rnum) (S (cs_figs s)) (cs_curves s), Raise e).
Proof.
  intros E. unfold plot_residuals, plot_norms, axes_or. unfold dbind at 1. unfold dbind at 1, figure, dret at 1. unfold dbind at 1, dlift at 1. nred. rewrite E. reflexivity.
Qed.
Theorem norms_plot time residuals m n rest name fmt (s : canvas) :
  (forall ph, In ph (0%nat :: rest) -> present time residuals ph /\ uniform m (nth ph time []) /\ length (nth ph time []) = n) ->
  let f := S (cs_figs s) in let a := Axis f 1 1 1 in
  let t := concat (map (times time) (0%nat :: rest)) in let r := concat (map (norms residuals) (0%nat :: rest)) in
  plot_residuals (N := Rnum) time residuals (0%nat :: rest) name None None (Some (repeat fmt 15)) s =
  (Canvas (N := Rnum) f (cs_curves s ++ [Curve (N := Rnum) a t r fmt (match name with Some x => Some (x ++ " ")%string | None => None end); Curve (N := Rnum) a t r "-" None]),
   Ok (Some f, AxOne a)).
Proof.
  intros H f a t r. apply norms_drawn; [exact (sort_uniform time residuals m n 0 rest H)|].
  assert (K : forall ph, In ph (0%nat :: rest) -> length (times time ph) = length (norms residuals ph)) by (intros ph Hph; apply matching_lengths; apply H; exact Hph).
  unfold t, r. clear - K. induction (0%nat :: rest) as [|ph l IH]; cbn [map concat]; [reflexivity|]. rewrite !app_length, IH by (intros; apply K; now right). rewrite K by (now left). reflexivity.
Qed.
