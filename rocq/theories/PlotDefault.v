(** Plots with the default styles, and with axes of the wrong kind (proofs for C53). *)
From Coq Require Import String.
From Coq Require Import Reals.
From Coq Require Import List Lia Lra Bool Arith.
From Verif Require Import Num PyList Mat Poly Roots Colloc Ocp Transcribe Solve Hadapt Resid Adaptive Post Plot SpecPost SpecPlot NumR ListR PlotR.
Import ListNotations.
Open Scope R_scope.
Open Scope list_scope.

Lemma firstn_seq {A} (g : nat -> A) l k n : (k <= n)%nat -> map g (seq 0 k) = firstn k (map g (seq 0 n) ++ l).
Proof.
  intros H. rewrite firstn_app, map_length, seq_length. replace (k - n)%nat with 0%nat by lia. cbn [firstn]. rewrite app_nil_r.
  replace n with (k + (n - k))%nat by lia. rewrite seq_app, map_app, firstn_app, map_length, seq_length, Nat.sub_diag. rewrite firstn_all2 by (rewrite map_length, seq_length; lia). cbn [firstn]. now rewrite app_nil_r.
Qed.
Theorem default_styles (d : pdata (N := Rnum)) (legend : bool) name s : length (pd_t d) = nr (pd_x d) -> length (pd_t d) = nr (pd_u d) ->
  let f := S (cs_figs s) in let a0 := Axis f 2 1 1 in let a1 := Axis f 2 1 2 in
  let cs := if legend then node_curves a0 a1 d "-" name else smooth_curves a0 a1 d "-" in
  ((nc (pd_x d) <= 20)%nat -> (nc (pd_u d) <= 20)%nat ->
     plot_all (pd_x d) (pd_u d) (pd_t d) None None None legend name s = (Canvas (N := Rnum) f (cs_curves s ++ cs), Ok (Some f, AxMany [a0; a1]))) /\
  ((20 < nc (pd_x d))%nat ->
     plot_all (pd_x d) (pd_u d) (pd_t d) None None None legend name s = (Canvas (N := Rnum) f (cs_curves s ++ firstn 20 cs), Raise IndexError)).
Proof.
  intros H1 H2 f a0 a1 cs. rewrite plot_all_new. fold f a0 a1. set (s1 := Canvas (N := Rnum) f (cs_curves s)).
  assert (N1 : forall k, (k <= 20)%nat -> map (one a0 (pd_x d) (pd_t d) (fun i => nth i (repeat "-"%string 20) ""%string) (fun i => label_of (Some (name ++ "state")%string) (index_of None i))) (seq 0 k) =
     map (one a0 (pd_x d) (pd_t d) (fun _ => "-"%string) (numbered (name ++ "state"))) (seq 0 k)) by (intros k Hk; apply one_tics; [exact Hk|reflexivity]).
  assert (N2 : forall k, (k <= 20)%nat -> map (one a0 (pd_x d) (pd_t d) (fun i => nth i (repeat "-"%string 20) ""%string) (fun i => label_of None (index_of None i))) (seq 0 k) =
     map (one a0 (pd_x d) (pd_t d) (fun _ => "-"%string) unlabelled) (seq 0 k)) by (intros k Hk; apply one_tics; [exact Hk|reflexivity]).
  split.
  - intros H3 H4. unfold plot_all, axes_or. unfold dbind at 1, dret at 1. subst cs. destruct legend.
    + unfold dbind at 1, dlift at 1. cbn [snd axis_at]. unfold at_ at 1. cbn [nth_error]. unfold tics_or, class_tics.
      unfold dbind at 1. rewrite plot_curve_ok by (rewrite ?repeat_length; auto). unfold dbind at 1, dlift at 1. unfold at_ at 1. cbn [nth_error].
      unfold dbind at 1. rewrite plot_curve_ok by (rewrite ?repeat_length; auto). rewrite plus_plus. unfold dret, node_curves. rewrite !curves_one, N1 by exact H3.
      rewrite (one_tics a1 _ _ "-" 20 _ (numbered (name ++ "control"))) by (auto; intros; reflexivity). reflexivity.
    + unfold dbind at 1, dlift at 1. cbn [snd axis_at]. unfold at_ at 1. cbn [nth_error]. unfold tics_or, class_tics.
      unfold dbind at 1. rewrite plot_curve_ok by (rewrite ?repeat_length; auto). unfold dbind at 1, dlift at 1. unfold at_ at 1. cbn [nth_error].
      unfold dbind at 1. rewrite plot_curve_ok by (rewrite ?repeat_length; auto). rewrite plus_plus. unfold dret, smooth_curves. rewrite !curves_one, N2 by exact H3.
      rewrite (one_tics a1 _ _ "-" 20 _ unlabelled) by (auto; intros; reflexivity). reflexivity.
  - intros H3. assert (FN : forall (g : nat -> curve (N := Rnum)) l, map g (seq 0 20) = firstn 20 (map g (seq 0 (nc (pd_x d))) ++ l)).
    { intros g l. apply firstn_seq. lia. }
    unfold plot_all, axes_or. unfold dbind at 1, dret at 1. subst cs. destruct legend.
    + unfold dbind at 1, dlift at 1. cbn [snd axis_at]. unfold at_ at 1. cbn [nth_error]. unfold tics_or, class_tics.
      unfold dbind at 1. rewrite plot_curve_short; [|exact H1|rewrite repeat_length; exact H3|reflexivity]. rewrite repeat_length, N1 by lia. unfold node_curves. rewrite curves_one, <- FN. reflexivity.
    + unfold dbind at 1, dlift at 1. cbn [snd axis_at]. unfold at_ at 1. cbn [nth_error]. unfold tics_or, class_tics.
      unfold dbind at 1. rewrite plot_curve_short; [|exact H1|rewrite repeat_length; exact H3|reflexivity]. rewrite repeat_length, N2 by lia. unfold smooth_curves. rewrite curves_one, <- FN. reflexivity.
Qed.
Theorem wrong_axes : forall (x u m : mat Rnum) (t : list R) tics (f : option nat) a (l : list axis) legend name title ls vertical (s : canvas (N := Rnum)),
  plot_all (N := Rnum) x u t tics f (Some (AxOne a)) legend name s = (s, Raise TypeError) /\
  ((2 <= length ls)%nat -> plot_single_variable (N := Rnum) m t (Nested ls) title vertical f (Some (AxOne a)) tics s = (s, Raise TypeError)) /\
  (forall k d, f = Some k -> d <> [] -> plot_single_variable (N := Rnum) m t (Flat d) title vertical f (Some (AxMany l)) tics s = (s, Raise TypeError)).
Proof.
  intros x u m t tics f a l legend name title ls vertical s. split; [|split].
  - unfold plot_all, axes_or. destruct f; unfold dbind at 1, dret at 1; destruct legend; reflexivity.
  - intros H. destruct ls as [|l1 [|l2 ls]]; [cbn in H; lia|cbn in H; lia|]. destruct f; reflexivity.
  - intros k d -> H. destruct d as [|j d]; [congruence|]. reflexivity.
Qed.
