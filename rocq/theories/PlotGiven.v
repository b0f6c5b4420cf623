(** Residuals drawn on given axes (proofs for C54). *)
From Coq Require Import String.
From Coq Require Import Reals.
From Coq Require Import List Lia Bool Arith.
From Verif Require Import Num PyList Mat Poly Roots Colloc Ocp Transcribe Solve Hadapt Resid Adaptive Post Plot SpecPost SpecPlot NumR.
Import ListNotations.
Open Scope R_scope.
Open Scope list_scope.

Section Given.
Context {N : num}.
Implicit Types (s : canvas (N := N)) (l : list (curve (N := N))).
Lemma extra_nil s : Canvas (cs_figs s) (cs_curves s ++ []) = s.
Proof. rewrite app_nil_r. now destruct s. Qed.
Lemma each_moves {A} (is : list A) (f : axis -> A -> D (N := N) unit) :
  (forall i, exists l r, forall a s, f a i s = (Canvas (cs_figs s) (cs_curves s ++ map (on_axis a) l), r)) ->
  exists l r, forall a s, each is (f a) s = (Canvas (cs_figs s) (cs_curves s ++ map (on_axis a) l), r).
Proof.
  intros H. induction is as [|i is (l2 & r2 & IH)].
  - exists [], (Ok tt). intros a s. cbn. unfold dret. now rewrite extra_nil.
  - destruct (H i) as (l1 & [u|e] & H1).
    + exists (l1 ++ l2), r2. intros a s. cbn [each]. unfold dbind. rewrite H1, IH. cbn [cs_figs cs_curves]. now rewrite map_app, app_assoc.
    + exists l1, (Raise e). intros a s. cbn [each]. unfold dbind. now rewrite H1.
Qed.
Lemma plot_curve_moves (x : mat N) t name tics li : exists l r, forall a s,
  plot_curve a x t name tics li s = (Canvas (cs_figs s) (cs_curves s ++ map (on_axis a) l), r).
Proof.
  unfold plot_curve. apply (each_moves (seq 0 (nc x)) (fun a i => dbind (dlift match li with None => Ok (show (i + 1)) | Some l => at_ l i end) (fun index => dbind (dlift (at_ tics i)) (fun fmt => draw a t (mcolumn x i) fmt (label_of name index))))).
  intros i. unfold dbind, dlift, draw.
  destruct (match li with None => Ok (show (i + 1)) | Some l => at_ l i end) as [index|e]; [|exists [], (Raise e); intros a s; cbn [map]; now rewrite extra_nil].
  destruct (at_ tics i) as [fmt|e]; [|exists [], (Raise e); intros a s; cbn [map]; now rewrite extra_nil].
  destruct (Nat.eqb (List.length t) (List.length (mcolumn x i))).
  - exists [Curve (Axis 0 0 0 0) t (mcolumn x i) fmt (label_of name index)], (Ok tt). reflexivity.
  - exists [], (Raise ValueError). intros a s. cbn [map]. unfold dlift. now rewrite extra_nil.
Qed.
Lemma norms_move (sorted : res (list N * list (cell (N := N)))) name tics : exists l e, forall a s,
  plot_norms sorted name None None tics s =
    (Canvas (S (cs_figs s)) (cs_curves s ++ map (on_axis (Axis (S (cs_figs s)) 1 1 1)) l),
     match e with None => Ok (Some (S (cs_figs s)), AxOne (Axis (S (cs_figs s)) 1 1 1)) | Some e => Raise e end) /\
  (forall fig, plot_norms sorted name fig (Some (AxOne a)) tics s =
    (Canvas (cs_figs s) (cs_curves s ++ map (on_axis a) l), match e with None => Ok (fig, AxOne a) | Some e => Raise e end)).
Proof.
  unfold plot_norms.
  destruct sorted as [rt|e].
  2:{ exists [], (Some e). intros a s. split.
      - unfold axes_or, dbind, figure, dret, dlift. cbn [map cs_figs cs_curves]. now rewrite app_nil_r.
      - intros [f|]; unfold axes_or, dbind, dret, dlift; cbn [map]; now rewrite extra_nil. }
  destruct (all_some (map (fun c => match c with CNum x => Some x | CArr _ => None end) (snd rt))) as [t|] eqn:Et.
  2:{ exists [], (Some ValueError). intros a s. split.
      - unfold axes_or, dbind, figure, dret, dlift. rewrite Et. cbn [map cs_figs cs_curves]. now rewrite app_nil_r.
      - intros [f|]; unfold axes_or, dbind, dret, dlift; rewrite Et; cbn [map]; now rewrite extra_nil. }
  destruct (plot_curve_moves (column (fst rt)) t name (tics_or tics) (Some (repeat ""%string 15))) as (l1 & r1 & H1).
  destruct (plot_curve_moves (column (fst rt)) t None solid (Some (repeat ""%string 15))) as (l2 & r2 & H2).
  exists (match r1 with Ok _ => l1 ++ l2 | Raise _ => l1 end), (match r1 with Raise e => Some e | Ok _ => match r2 with Raise e => Some e | Ok _ => None end end).
  intros a s. split.
  - unfold axes_or, dbind, figure, dret, dlift. cbn [subplots Nat.mul Nat.add Nat.eqb snd the_axis]. rewrite Et, H1. cbn [cs_figs cs_curves].
    destruct r1 as [u|e]; [|reflexivity]. rewrite H2. cbn [cs_figs cs_curves]. rewrite map_app, app_assoc. now destruct r2.
  - intros [f|]; unfold axes_or, dbind, dret, dlift; cbn [snd the_axis]; rewrite Et, H1; cbn [cs_figs cs_curves];
    (destruct r1 as [u|e]; [|reflexivity]); rewrite H2; cbn [cs_figs cs_curves]; rewrite map_app, app_assoc; now destruct r2.
Qed.
Lemma norms_wrong (sorted : res (list N * list (cell (N := N)))) name tics s f many :
  plot_norms sorted name (Some f) None tics s = (s, Raise TypeError) /\
  plot_norms sorted name None (Some (AxMany many)) tics s = (s, Raise ValueError) /\
  exists e, plot_norms sorted name (Some f) (Some (AxMany many)) tics s = (s, Raise e).
Proof.
  split; [reflexivity|]. split; [reflexivity|]. unfold plot_norms, axes_or, dbind, dret, dlift.
  destruct sorted as [rt|e]; [|eauto]. destruct (all_some _); [|eauto]. cbn [snd the_axis]. eauto.
Qed.
End Given.

Theorem dynamics_given rc (mp : mpo Rnum) sw z nodes gt rel out : dynamics_residuals rc mp sw z nodes gt rel = Ok out ->
  drawn_on (dynamics_drawn rc mp sw z nodes gt rel).
Proof.
  intros E. destruct (norms_move (sort_residual_data (fst out) (snd out) (seq 0 (o_nph (mp_ocp mp)))) None (Some dots)) as (l & e & H).
  exists l, (match e with None => Ok out | Some e => Raise e end). intros s.
  unfold dynamics_drawn_by. unfold dbind, dlift. nred. rewrite E. unfold plot_residuals. nred. split; [|split].
  - rewrite (proj1 (H (Axis 0 0 0 0) s)). now destruct e.
  - intros fig a. rewrite (proj2 (H a s)). now destruct e.
  - intros f many. destruct (norms_wrong (sort_residual_data (fst out) (snd out) (seq 0 (o_nph (mp_ocp mp)))) None (Some dots) s f many) as (-> & -> & e' & ->). eauto.
Qed.
Theorem states_given rc (mp : mpo Rnum) sw z phases nodes rel out : states_residuals rc mp sw z phases nodes rel = Ok out ->
  drawn_on (states_drawn rc mp sw z phases nodes rel).
Proof.
  intros E. unfold states_drawn_by.
  assert (X : forall e0, exists l e, forall s, 
    (dbind (axes_or None None 1 1) (fun _ => dlift (A := option nat * axes) (Raise e0)) s = (Canvas (N := Rnum) (S (cs_figs s)) (cs_curves s ++ map (on_axis (Axis (S (cs_figs s)) 1 1 1)) l), Raise e)) /\
    (forall fig a, dbind (axes_or fig (Some (AxOne a)) 1 1) (fun _ => dlift (A := option nat * axes) (Raise e0)) s = (Canvas (N := Rnum) (cs_figs s) (cs_curves s ++ map (on_axis a) l), Raise e)) /\
    (forall f many, dbind (axes_or (Some f) None 1 1) (fun _ => dlift (A := option nat * axes) (Raise e0)) s = (s, Raise TypeError) /\
      dbind (axes_or None (Some (AxMany many)) 1 1) (fun _ => dlift (A := option nat * axes) (Raise e0)) s = (s, Raise ValueError) /\
      exists e', dbind (axes_or (Some f) (Some (AxMany many)) 1 1) (fun _ => dlift (A := option nat * axes) (Raise e0)) s = (s, Raise e'))).
  { intros e0. exists [], e0. intros s. split; [|split].
    - unfold axes_or, dbind, figure, dret, dlift. cbn [map cs_figs cs_curves]. now rewrite app_nil_r.
    - intros [f|] a; unfold axes_or, dbind, dret, dlift; cbn [map]; now rewrite extra_nil.
    - intros f many. repeat split. eexists. reflexivity. }
  assert (Y : forall m : option nat -> option axes -> D (N := Rnum) (option nat * axes), (exists l e, forall s,
      (m None None s = (Canvas (N := Rnum) (S (cs_figs s)) (cs_curves s ++ map (on_axis (Axis (S (cs_figs s)) 1 1 1)) l), Raise e)) /\
      (forall fig a, m fig (Some (AxOne a)) s = (Canvas (N := Rnum) (cs_figs s) (cs_curves s ++ map (on_axis a) l), Raise e)) /\
      (forall f many, m (Some f) None s = (s, Raise TypeError) /\ m None (Some (AxMany many)) s = (s, Raise ValueError) /\
        exists e', m (Some f) (Some (AxMany many)) s = (s, Raise e'))) ->
    drawn_on (fun fig axs => dbind (m fig axs) (fun _ => dret out))).
  { intros m (l & e & H). exists l, (Raise e). intros s. destruct (H s) as (H1 & H2 & H3). unfold dbind. split; [|split].
    - now rewrite H1.
    - intros fig a. now rewrite H2.
    - intros f many. destruct (H3 f many) as (-> & -> & e' & ->). eauto. }
  assert (Z : forall m m' : option nat -> option axes -> D (N := Rnum) (list (nat * list (option (segstate (N := Rnum))))), (forall fig axs s, m fig axs s = m' fig axs s) -> drawn_on m' -> drawn_on m).
  { intros m m' Em (l & e & H). exists l, e. intros s. destruct (H s) as (H1 & H2 & H3). split; [|split].
    - now rewrite Em.
    - intros fig a. now rewrite Em.
    - intros f many. rewrite !Em. apply H3. }
  destruct (all_some (map (of_phase out) (seq 0 (o_nph (mp_ocp mp))))) as [ls|] eqn:E1.
  2:{ eapply Z; [|apply (Y (fun fig axs => dbind (axes_or fig axs 1 1) (fun _ => dlift (Raise TypeError)))), X].
      intros fig axs s. unfold dbind at 1, dlift at 1. nred. rewrite E. rewrite E1. reflexivity. }
  destruct (all_some (map (@all_some _) ls)) as [segs|] eqn:E2.
  2:{ eapply Z; [|apply (Y (fun fig axs => dbind (axes_or fig axs 1 1) (fun _ => dlift (Raise ValueError)))), X].
      intros fig axs s. unfold dbind at 1, dlift at 1. nred. rewrite E. rewrite E1, E2. reflexivity. }
  set (so := sort_residual_data (N := Rnum) (map (map (@ss_t Rnum)) segs) (map (map (fun s => Some (ss_r s))) segs) (seq 0 (o_nph (mp_ocp mp)))).
  destruct (norms_move so None (Some dots)) as (l & e & H).
  eapply (Z _ (fun fig axs => dbind (plot_norms so None fig axs (Some dots)) (fun _ => dret out))).
  { intros fig axs s. unfold dbind at 1, dlift at 1. nred. rewrite E. rewrite E1, E2. reflexivity. }
  exists l, (match e with None => Ok out | Some e => Raise e end). intros s. unfold dbind. split; [|split].
  - rewrite (proj1 (H (Axis 0 0 0 0) s)). now destruct e.
  - intros fig a. rewrite (proj2 (H a s)). now destruct e.
  - intros f many. destruct (norms_wrong so None (Some dots) s f many) as (-> & -> & e' & ->). eauto.
Qed.
